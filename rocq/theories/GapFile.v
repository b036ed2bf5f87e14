(** Proofs about the file layer of the segment tree. *)
From Verif Require Import Bytes Outcome GapModel GapSpec GapProofs.
From Coq Require Import ZifyBool ZifyNat ZifyN Permutation.
Local Open Scope N_scope.

(** ** Closing gaps *)
Definition mv (o s : N) (x : range) : range := if o <? fst x then (fst x - s, snd x) else x.
Lemma place_move o s b : place (move_seg o s b) = mv o s (place b).
Proof. unfold move_seg, mv, place. cbn [fst]. destruct (o <? soff b); reflexivity. Qed.

Lemma cov_mv o s l b : 0 < s -> nonempty l -> (forall x, In x l -> fst x + snd x <= o \/ o + s <= fst x) ->
  cov (map (mv o s) l) b = if b <? o then cov l b else cov l (b + s).
Proof.
  intros Hs N H. induction l as [|x l IH]; [destruct (b <? o); reflexivity|].
  inversion N as [|? ? Nx N']; subst. cbn [map cov]. rewrite IH; auto; [|intros y Hy; apply H; right; exact Hy].
  specialize (H x (or_introl eq_refl)). unfold mv, covers.
  destruct (N.ltb_spec o (fst x)), (N.ltb_spec b o); cbn [fst snd];
  repeat match goal with |- context [if ?c then _ else _] => destruct c eqn:? end; lia.
Qed.

Lemma last_end_cons x y l : last_end (x :: y :: l) = last_end (y :: l).
Proof. reflexivity. Qed.
Lemma cov_grow s l b : l <> [] ->
  cov (grow_last s l) b = (cov l b + (if ((last_end l <=? b) && (b <? last_end l + s))%N then 1 else 0))%nat.
Proof.
  intros H. induction l as [|x l IH]; [contradiction|]. destruct l as [|y l].
  - destruct x as [o n]. cbn [grow_last cov]. unfold last_end, covers. cbn [last fst snd]. iflia.
  - rewrite last_end_cons. change (grow_last s (x :: y :: l)) with (let '(_, _) := x in x :: grow_last s (y :: l)).
    destruct x as [o n]. cbn [cov]. rewrite IH by discriminate. cbn [cov]. lia.
Qed.
Lemma grow_shape s l : l <> [] ->
  length (grow_last s l) = length l /\ (exists y r z r', l = y :: r /\ grow_last s l = z :: r' /\ fst z = fst y) /\
  last_end (grow_last s l) = last_end l + s /\ (nonempty l -> nonempty (grow_last s l)) /\
  (separated l -> separated (grow_last s l)).
Proof.
  intros H. induction l as [|x l IH]; [contradiction|]. destruct l as [|y l].
  - destruct x as [o n]. cbn [grow_last length]. split; [reflexivity|]. split; [|split; [|split]].
    + exists (o, n), [], (o, n + s), []. auto.
    + unfold last_end. cbn. lia.
    + intros N. inversion N; subst. constructor; [cbn in *; lia|constructor].
    + intros _. exact I.
  - destruct (IH ltac:(discriminate)) as (L & (y' & r & z & r' & E1 & E2 & F) & LE & N & S). injection E1 as <- <-.
    assert (G : grow_last s (x :: y :: l) = x :: z :: r') by (destruct x; rewrite <- E2; reflexivity).
    rewrite G. rewrite E2 in *. cbn [length] in *. split; [lia|]. split; [|split; [|split]].
    + exists x, (y :: l), x, (z :: r'). auto.
    + exact LE.
    + intros NN. inversion NN; subst. constructor; [assumption|apply N; assumption].
    + intros [H1 H2]. split; [rewrite F; assumption|auto].
Qed.

Definition shift (s : N) (x : range) : range := (fst x - s, snd x).
Lemma shift_shape s l : nonempty l -> separated l -> (forall x, In x l -> s <= fst x) ->
  nonempty (map (shift s) l) /\ separated (map (shift s) l) /\ (l <> [] -> last_end (map (shift s) l) = last_end l - s).
Proof.
  intros N S H. induction l as [|x l IH]; [repeat split; auto; contradiction|].
  inversion N; subst. destruct IH as (A & B & C); auto.
  { eapply separated_tl; exact S. } { intros y Hy. apply H. right. exact Hy. }
  split; [constructor; auto|]. destruct l as [|y l].
  - repeat split. intros _. unfold last_end. cbn. specialize (H x (or_introl eq_refl)). lia.
  - split.
    + cbn [map]. split; [|exact B]. destruct S. unfold shift. cbn. pose proof (H x (or_introl eq_refl)). lia.
    + intros _. cbn [map]. rewrite !last_end_cons. apply C. discriminate.
Qed.

Definition moved (a b : seg) : Prop :=
  ssize b = ssize a /\ sblock b = sblock a /\ (b = a \/ smod b = true).
Lemma moved_refl a : moved a a.
Proof. repeat split; auto. Qed.
Lemma moved_trans a b c : moved a b -> moved b c -> moved a c.
Proof. intros (A & B & C) (D & E & F). repeat split; try congruence. destruct F as [->|F]; auto. Qed.
Lemma moved_move o s b : moved b (move_seg o s b).
Proof. unfold move_seg. destruct (o <? soff b); repeat split; auto. Qed.

Lemma close_loop_spec lo hi : forall fuel g sg, (length g <= fuel)%nat ->
  partition lo hi (map place sg ++ g) -> separated g -> nonempty g -> nonempty (map place sg) ->
  g <> [] -> last_end g = hi ->
  let '(g', sg') := close_loop fuel g sg in
  partition lo hi (map place sg' ++ g') /\ nonempty (map place sg') /\
  (exists o, g' = [(o, hi - o)] /\ o < hi) /\ Forall2 moved sg sg' /\ (length g = 1%nat -> sg' = sg /\ g' = g).
Proof.
  induction fuel as [|fuel IH]; intros g sg L P S N Ns NE LE; [destruct g; [contradiction|cbn in L; lia]|].
  destruct g as [|[o s] [|r0 r]]; [contradiction| |].
  - cbn [close_loop]. unfold last_end in LE. cbn [last fst snd] in LE. inversion N; subst. cbn [snd] in *.
    repeat split; auto.
    + exists o. split; [f_equal; f_equal; lia|lia].
    + clear. induction sg; constructor; auto. apply moved_refl.
  - cbn [close_loop]. assert (Hs : 0 < s) by (inversion N; assumption). assert (N' : nonempty (r0 :: r)) by (inversion N; assumption).
    set (R := r0 :: r) in *.
    assert (Sall : forall x, In x R -> o + s < fst x) by (intros x Hx; apply (separated_all _ _ S N x Hx)).
    assert (SR : separated R) by (eapply separated_tl; exact S).
    destruct (shift_shape s R N' SR) as (A1 & A2 & A3). { intros x Hx. specialize (Sall x Hx). lia. }
    specialize (A3 ltac:(discriminate)).
    assert (NEs : map (shift s) R <> []) by discriminate.
    destruct (grow_shape s _ NEs) as (G1 & _ & G3 & G4 & G5).
    set (g2 := grow_last s (map (shift s) R)) in *.
    assert (LR : last_end R = hi) by exact LE.
    assert (LRs : s <= last_end R).
    { assert (In (last R (0,0)) R). { unfold R. clear. generalize r0. induction r as [|z r IH]; intros y; [left; reflexivity|]. right. apply IH. }
      specialize (Sall _ H). unfold last_end. lia. }
    assert (LE2 : last_end g2 = hi) by (rewrite G3, A3; lia).
    specialize (IH g2 (map (move_seg o s) sg)).
    match goal with |- context [close_loop fuel ?a ?b] => change (close_loop fuel a b) with (close_loop fuel g2 b) end.
    assert (PL : map place (map (move_seg o s) sg) = map (mv o s) (map place sg)).
    { rewrite !map_map. apply map_ext. apply place_move. }
    assert (Pos : forall x, In x (map place sg ++ R) -> fst x + snd x <= o \/ o + s <= fst x).
    { intros x Hx. apply in_app_iff in Hx as [Hx|Hx].
      - assert (D : disjoint x (o, s)). { eapply partition_apart; [exact P|exact Hx|left; reflexivity]. }
        apply disjoint_apart in D; auto. unfold nonempty in Ns. rewrite Forall_forall in Ns. auto.
      - specialize (Sall x Hx). lia. }
    assert (EqT : map (shift s) R = map (mv o s) R).
    { apply map_ext_in. intros x Hx. specialize (Sall x Hx). unfold mv, shift. replace (o <? fst x) with true by lia. reflexivity. }
    assert (Wo : lo <= o /\ o + s <= hi).
    { apply (partition_within lo _ (map place sg ++ (o, s) :: R) (o, s)); auto. apply in_app_iff. right. left. reflexivity. }
    lapply IH; [clear IH; intros IH|rewrite G1, map_length; cbn in *; lia].
    assert (P2 : partition lo (hi) (map place (map (move_seg o s) sg) ++ g2)).
    { intros b. rewrite PL, cov_app. unfold g2. rewrite cov_grow by exact NEs. rewrite A3, EqT.
      assert (C : forall b, (cov (map (mv o s) (map place sg)) b + cov (map (mv o s) R) b)%nat =
                  if b <? o then cov (map place sg ++ R) b else cov (map place sg ++ R) (b + s)).
      { intros c. rewrite <- cov_app, <- map_app. apply cov_mv; auto. apply Forall_app. auto. }
      specialize (C b).
      pose proof (P b) as P1. pose proof (P (b + s)) as P3. rewrite cov_split in P1, P3.
      unfold covers in *. cbn [fst snd] in *.
      destruct (N.ltb_spec b o).
      - repeat match goal with H : context [if ?c then _ else _] |- _ => destruct c eqn:? end; iflia.
      - repeat match goal with H : context [if ?c then _ else _] |- _ => destruct c eqn:? end; iflia. }
    specialize (IH P2 (G5 A2) (G4 A1)).
    destruct (close_loop fuel g2 (map (move_seg o s) sg)) as [g' sg'].
    destruct IH as (I1 & I2 & I3 & I4 & _); auto.
    { rewrite PL. unfold nonempty in *. rewrite Forall_map. eapply Forall_impl; [|exact Ns]. intros x Hx. unfold mv. destruct (o <? fst x); exact Hx. }
    { intros X. rewrite X in G1. discriminate. }
    split; [exact I1|split; [exact I2|split; [exact I3|split]]].
    + clear - I4. revert sg' I4. induction sg as [|b sg IH]; intros sg' H; inversion H; subst; constructor; auto.
      eapply moved_trans; [apply moved_move|eassumption].
    + discriminate.
Qed.

(** ** Bytes of the file *)
Lemma pad_length n f : length (pad_to n f) = Nat.max n (length f).
Proof. unfold pad_to, zeros. rewrite app_length, repeat_length. lia. Qed.
Lemma nth_error_firstn {A} n (l : list A) i : (i < n)%nat -> nth_error (firstn n l) i = nth_error l i.
Proof.
  revert l i. induction n as [|n IH]; intros l i H; [lia|]. destruct l as [|x l]; [destruct i; reflexivity|].
  destruct i as [|i]; [reflexivity|]. cbn. apply IH. lia.
Qed.
Lemma nth_error_skipn {A} n (l : list A) i : nth_error (skipn n l) i = nth_error l (n + i).
Proof.
  revert l. induction n as [|n IH]; intros l; [reflexivity|]. destruct l as [|x l]; [destruct i; reflexivity|]. cbn. apply IH.
Qed.
Lemma fwrite_length a d f : length (fwrite a d f) = Nat.max (length f) (a + length d).
Proof. unfold fwrite. rewrite !app_length, firstn_length, pad_length, skipn_length. lia. Qed.
Lemma fwrite_nth a d f i : (i < length f)%nat -> (i < a \/ a + length d <= i)%nat ->
  nth_error (fwrite a d f) i = nth_error f i.
Proof.
  intros L H. unfold fwrite. pose proof (pad_length a f) as PL.
  assert (FL : length (firstn a (pad_to a f)) = a) by (rewrite firstn_length; lia).
  destruct H as [H|H].
  - rewrite nth_error_app1 by lia. rewrite nth_error_firstn by lia. unfold pad_to. apply nth_error_app1. exact L.
  - rewrite nth_error_app2, FL by lia. rewrite nth_error_app2 by lia. rewrite nth_error_skipn. f_equal. lia.
Qed.
Lemma fwrite_nth_in a d f i : (i < length d)%nat -> nth_error (fwrite a d f) (a + i) = nth_error d i.
Proof.
  intros L. unfold fwrite. pose proof (pad_length a f) as PL.
  assert (FL : length (firstn a (pad_to a f)) = a) by (rewrite firstn_length; lia).
  rewrite nth_error_app2, FL by lia. rewrite nth_error_app1 by lia. f_equal. lia.
Qed.
Lemma nth_ext' {A} (a b : list A) : length a = length b -> (forall i, (i < length a)%nat -> nth_error a i = nth_error b i) -> a = b.
Proof.
  revert b. induction a as [|x a IH]; intros [|y b] L H; try discriminate; [reflexivity|].
  cbn in L. pose proof (H O ltac:(cbn; lia)) as E. injection E as ->. f_equal. apply IH; [lia|].
  intros i Hi. apply (H (S i)). cbn. lia.
Qed.
Lemma fread_length a n f : (a + n <= length f)%nat -> length (fread a n f) = n.
Proof. intros H. unfold fread. rewrite firstn_length, skipn_length. lia. Qed.
Lemma fread_nth a n f i : (i < n)%nat -> nth_error (fread a n f) i = nth_error f (a + i).
Proof. intros H. unfold fread. rewrite nth_error_firstn by exact H. apply nth_error_skipn. Qed.
Lemma fread_ext a n f g : (a + n <= length f)%nat -> (a + n <= length g)%nat ->
  (forall i, (i < n)%nat -> nth_error f (a + i) = nth_error g (a + i)) -> fread a n f = fread a n g.
Proof.
  intros A B H. apply nth_ext'; [rewrite !fread_length; auto|]. intros i Hi. rewrite fread_length in Hi by auto.
  rewrite !fread_nth by auto. auto.
Qed.
Lemma fread_fwrite_same a d f : fread a (length d) (fwrite a d f) = d.
Proof.
  assert (L : (a + length d <= length (fwrite a d f))%nat) by (rewrite fwrite_length; lia).
  apply nth_ext'; [apply fread_length; exact L|]. intros i Hi. rewrite fread_length in Hi by auto.
  rewrite fread_nth by auto. apply fwrite_nth_in. exact Hi.
Qed.
Lemma fread_fwrite_other a n a' d f : (a + n <= length f)%nat -> (a + n <= a' \/ a' + length d <= a)%nat ->
  fread a n (fwrite a' d f) = fread a n f.
Proof.
  intros L H. apply fread_ext; [rewrite fwrite_length; lia|lia|]. intros i Hi. apply fwrite_nth; lia.
Qed.
Lemma ftruncate_length n f : length (ftruncate n f) = n.
Proof. unfold ftruncate. rewrite firstn_length, pad_length. lia. Qed.
Lemma fread_ftruncate a n m f : (a + n <= length f)%nat -> (a + n <= m)%nat -> fread a n (ftruncate m f) = fread a n f.
Proof.
  intros A B. apply fread_ext; [rewrite ftruncate_length; lia|lia|]. intros i Hi. unfold ftruncate.
  rewrite nth_error_firstn by lia. unfold pad_to. apply nth_error_app1. lia.
Qed.

(** ** Writing the blocks *)
Definition apart (x y : range) : Prop := fst x + snd x <= fst y \/ fst y + snd y <= fst x.
Definition in_file (x : range) (f : list byte) : Prop := fst x + snd x <= N.of_nat (length f).
Definition rd (x : range) (f : list byte) : list byte := fread (N.to_nat (fst x)) (N.to_nat (snd x)) f.
Definition write1 (b : seg) (f : list byte) : list byte :=
  match sblock b with Some d => if smod b then fwrite (N.to_nat (soff b)) d f else f | None => f end.

Lemma write1_other x b f : block_ok f b -> in_file x f -> apart x (place b) ->
  in_file x (write1 b f) /\ rd x (write1 b f) = rd x f.
Proof.
  intros [B _] I A. unfold write1, in_file, rd, apart, place in *. cbn [fst snd] in A. destruct (sblock b) as [d|]; [|auto]. destruct (smod b); [|auto].
  specialize (B d eq_refl). rewrite fwrite_length. split; [lia|]. apply fread_fwrite_other; lia.
Qed.
Lemma write1_same b f : block_ok f b -> in_file (place b) (write1 b f) /\ rd (place b) (write1 b f) = content f b.
Proof.
  intros [B C]. unfold write1, in_file, rd, place in *. cbn [fst snd]. unfold content in *.
  destruct (sblock b) as [d|] eqn:E.
  - specialize (B d eq_refl). destruct (smod b) eqn:M.
    + rewrite fwrite_length. split; [lia|]. replace (N.to_nat (ssize b)) with (length d) by lia. apply fread_fwrite_same.
    + destruct C as [C1 C2]; [left; reflexivity|]. auto.
  - destruct C as [C1 C2]; [right; reflexivity|]. auto.
Qed.
Lemma write1_block_ok b c f : block_ok f b -> block_ok f c -> apart (place c) (place b) ->
  block_ok (write1 b f) c /\ content (write1 b f) c = content f c.
Proof.
  intros Hb [C1 C2] A. unfold block_ok, content in *. destruct (sblock c) as [d|] eqn:E.
  - split; [|reflexivity]. split; [exact C1|]. intros [M|M]; [|discriminate]. destruct (C2 (or_introl M)) as [X Y].
    destruct (write1_other (place c) b f Hb X A) as [X' Y']. unfold rd, place in Y'. cbn [fst snd] in Y'. split; [exact X'|congruence].
  - destruct C2 as [X _]; [right; reflexivity|]. destruct (write1_other (place c) b f Hb X A) as [X' Y'].
    unfold rd, place in Y'. cbn [fst snd] in Y'. split; [|exact Y']. split; [discriminate|]. intros _. split; [exact X'|reflexivity].
Qed.

Fixpoint all_apart (l : list seg) : Prop :=
  match l with [] => True | b :: r => (forall c, In c r -> apart (place c) (place b)) /\ all_apart r end.

Lemma write_segs_spec l : forall f, all_apart l -> Forall (block_ok f) l ->
  (forall x, in_file x f -> (forall b, In b l -> apart x (place b)) -> in_file x (write_segs l f) /\ rd x (write_segs l f) = rd x f) /\
  (forall b, In b l -> in_file (place b) (write_segs l f) /\ rd (place b) (write_segs l f) = content f b).
Proof.
  induction l as [|b l IH]; intros f A F; [split; [auto|intros ? []]|].
  destruct A as [A1 A2]. inversion F as [|? ? Fb Fl]; subst.
  change (write_segs (b :: l) f) with (write_segs l (write1 b f)).
  destruct (IH (write1 b f)) as [I1 I2]; auto.
  { rewrite Forall_forall in *. intros c Hc. apply (write1_block_ok b c f); auto. }
  split.
  - intros x Hx Ax. destruct (write1_other x b f Fb Hx) as [X Y]; [apply Ax; left; reflexivity|].
    destruct (I1 x X) as [X' Y']; [intros c Hc; apply Ax; right; exact Hc|]. split; [exact X'|congruence].
  - intros c [<-|Hc].
    + destruct (write1_same b f Fb) as [X Y]. destruct (I1 (place b) X) as [X' Y'].
      { intros c Hc. specialize (A1 c Hc). unfold apart in *. lia. }
      split; [exact X'|congruence].
    + destruct (I2 c Hc) as [X Y]. split; [exact X|]. rewrite Y. rewrite Forall_forall in Fl.
      apply (write1_block_ok b c f); auto.
Qed.

Lemma partition_all_apart lo hi l g : partition lo hi (map place l ++ g) -> nonempty (map place l) -> all_apart l.
Proof.
  intros P N. assert (Q : forall b, (cov (map place l) b <= 1)%nat).
  { intros b. specialize (P b). rewrite cov_app in P. destruct (_ && _); lia. }
  clear P. induction l as [|b l IH]; [exact I|]. cbn [map] in *. inversion N as [|? ? N1 N2]; subst. split.
  - intros c Hc. assert (Hin : In (place c) (map place l)) by (apply in_map; exact Hc).
    unfold apart. assert (D : disjoint (place c) (place b)).
    { intros p C1 C2. pose proof (cov_in _ _ _ Hin C1). specialize (Q p). cbn [cov] in Q. rewrite C2 in Q. lia. }
    apply disjoint_apart in D; auto. unfold nonempty in N2. rewrite Forall_forall in N2. auto.
  - apply IH; auto. intros p. specialize (Q p). cbn [cov] in Q. lia.
Qed.

(** ** flush *)
Definition all_loaded (st : sstore) : Prop := Forall (fun b => sblock b <> None) (segs st).
Definition no_hole (st : sstore) : Prop := length (sgaps st) = 1%nat.

Lemma flush_spec lo hi st : store_ok lo hi st -> all_loaded st \/ no_hole st ->
  exists st', flush st = Ok st' /\ store_ok lo hi st' /\
    length (dir (file st')) = length (segs st) /\ length (segs st') = length (segs st) /\
    (forall i b, nth_error (segs st) i = Some b ->
       (exists p, nth_error (dir (file st')) i = Some p /\ rd p (bytes (file st')) = content (bytes (file st)) b /\
          lo <= fst p /\ fst p + snd p <= N.of_nat (length (bytes (file st'))) /\ 0 < snd p) /\
       (exists b', nth_error (segs st') i = Some b' /\ content (bytes (file st')) b' = content (bytes (file st)) b)) /\
    partition lo (N.of_nat (length (bytes (file st')))) (dir (file st')) /\
    lo <= N.of_nat (length (bytes (file st'))) < hi.
Proof.
  intros (P & S & N & Ns & NE & LE & B) H. unfold flush, clean_gaps.
  destruct (sgaps st) as [|c r] eqn:EG; [contradiction|]. rewrite clean_id by exact S. cbn [rbind].
  pose proof (close_loop_spec lo hi (length (c :: r)) (c :: r) (segs st) (Nat.le_refl _) P S N Ns NE LE) as CL.
  destruct (close_loop (length (c :: r)) (c :: r) (segs st)) as [g' sg].
  destruct CL as (P' & Ns' & (o & -> & Ho) & M & Same).
  assert (B' : Forall (block_ok (bytes (file st))) sg /\ Forall2 (fun a b => content (bytes (file st)) b = content (bytes (file st)) a) (segs st) sg).
  { destruct H as [H|H].
    - unfold all_loaded in H. clear - H B M. revert H B. induction M as [|a b l l' Mab M IH]; intros H B; [split; constructor|].
      inversion H; subst. inversion B as [|? ? Ba Bl]; subst. destruct (IH H3 Bl) as [X Y].
      destruct Mab as (M1 & M2 & M3). split; constructor; auto.
      + destruct M3 as [->|M3]; [exact Ba|]. destruct Ba as [Ba _]. split; [rewrite M1, M2; exact Ba|].
        intros [E|E]; congruence.
      + unfold content. rewrite M2. destruct (sblock a); [reflexivity|contradiction].
    - unfold no_hole in H. rewrite EG in H. destruct (Same H) as [-> _]. split; [exact B|]. clear. induction (segs st); constructor; auto. }
  destruct B' as [B' CE]. clear M Same H.
  pose proof (partition_all_apart _ _ _ _ P' Ns') as AA.
  destruct (write_segs_spec sg (bytes (file st)) AA B') as [_ W].
  set (f := write_segs sg (bytes (file st))) in *.
  assert (PD : partition lo o (map place sg)).
  { intros b. pose proof (P' b) as X. rewrite cov_app in X. cbn [cov] in X. unfold covers in X. cbn [fst snd] in X.
    pose proof (partition_within lo hi _ (o, hi - o) P' ltac:(apply in_app_iff; right; left; reflexivity) ltac:(cbn; lia)) as Y. cbn [fst snd] in Y.
    repeat match goal with H : context [if ?c then _ else _] |- _ => destruct c eqn:? end; iflia. }
  assert (In_o : forall b, In b sg -> lo <= soff b /\ soff b + ssize b <= o /\ 0 < ssize b).
  { intros b Hb. assert (X : In (place b) (map place sg)) by (apply in_map; exact Hb).
    unfold nonempty in Ns'. rewrite Forall_forall in Ns'. pose proof (Ns' _ X) as Y.
    pose proof (partition_within lo o _ _ PD X Y) as Z. unfold place in *. cbn [fst snd] in *. lia. }
  assert (RT : forall b, In b sg -> rd (place b) (ftruncate (N.to_nat o) f) = content (bytes (file st)) b).
  { intros b Hb. destruct (W b Hb) as [X Y]. destruct (In_o b Hb) as (_ & Z & _). rewrite <- Y. unfold rd, in_file, place in *. cbn [fst snd] in *.
    apply fread_ftruncate; lia. }
  assert (CT : forall b, In b sg -> content (ftruncate (N.to_nat o) f) (clear_mod b) = content (bytes (file st)) b).
  { intros b Hb. pose proof (RT b Hb) as X. unfold content, clear_mod in *. destruct (sblock b) eqn:E; cbn [sblock]; [reflexivity|].
    rewrite E. exact X. }
  assert (PLc : map place (map clear_mod sg) = map place sg).
  { rewrite map_map. apply map_ext. intros b. unfold clear_mod, place. destruct (sblock b); reflexivity. }
  assert (LEN : forall i b, nth_error (segs st) i = Some b -> exists b', nth_error sg i = Some b' /\ content (bytes (file st)) b' = content (bytes (file st)) b).
  { clear - CE. induction CE as [|a b l l' X Y IH]; intros [|i] c Hc; try discriminate; cbn in *.
    - injection Hc as <-. eauto. - auto. }
  assert (LL : length sg = length (segs st)) by (clear - CE; induction CE; cbn; congruence).
  eexists. split; [reflexivity|]. cbn [file segs sgaps dir bytes]. split; [|split; [|split; [|split; [|split]]]].
  - unfold store_ok. cbn [file segs sgaps dir bytes]. rewrite PLc. repeat split; auto; try discriminate.
    + constructor; [cbn; lia|constructor].
    + unfold last_end. cbn. lia.
    + rewrite Forall_map, Forall_forall. intros b Hb. pose proof (RT b Hb) as X. pose proof (CT b Hb) as Y. unfold block_ok.
      rewrite Forall_forall in B'. destruct (B' b Hb) as [B1 _].
      assert (Z : place (clear_mod b) = place b) by (unfold clear_mod, place; destruct (sblock b); reflexivity).
      injection Z as Z1 Z2.
      assert (Z3 : sblock (clear_mod b) = sblock b) by (unfold clear_mod; destruct (sblock b) eqn:E; cbn; congruence).
      rewrite Z1, Z2, Z3. split; [exact B1|]. intros _. destruct (In_o b Hb) as (_ & Q & _). rewrite ftruncate_length. split; [lia|].
      rewrite Y. exact X.
  - rewrite map_length. exact LL.
  - rewrite map_length. exact LL.
  - intros i b Hb. destruct (LEN i b Hb) as (b' & Hb' & E). pose proof (nth_error_In _ _ Hb') as In'.
    destruct (In_o b' In') as (Q1 & Q2 & Q3). split.
    + exists (place b'). split; [apply map_nth_error; exact Hb'|]. split; [rewrite RT by exact In'; exact E|].
      rewrite ftruncate_length. unfold place. cbn [fst snd]. repeat split; lia.
    + exists (clear_mod b'). split; [apply map_nth_error; exact Hb'|]. rewrite CT by exact In'. exact E.
  - rewrite ftruncate_length, N2Nat.id. exact PD.
  - rewrite ftruncate_length, N2Nat.id. split; [|exact Ho].
    apply (partition_within lo hi _ (o, hi - o) P' ltac:(apply in_app_iff; right; left; reflexivity) ltac:(cbn; lia)).
Qed.

Lemma flush_load lo hi st : store_ok lo hi st -> all_loaded st \/ no_hole st ->
  exists st', flush st = Ok st' /\ store_ok lo hi (lazy_load hi (file st')) /\
    map (content (bytes (file st'))) (segs (lazy_load hi (file st'))) = map (content (bytes (file st))) (segs st) /\
    map (content (bytes (file st'))) (segs st') = map (content (bytes (file st))) (segs st).
Proof.
  intros O H. destruct (flush_spec lo hi st O H) as (st' & E & O' & L1 & L2 & R & P & Hh).
  exists st'. split; [exact E|].
  set (mk := fun p : range => {| soff := fst p; ssize := snd p; sblock := None; smod := false |}).
  assert (PM : map place (map mk (dir (file st'))) = dir (file st')).
  { rewrite map_map. rewrite <- (map_id (dir (file st'))) at 2. apply map_ext. intros []. reflexivity. }
  assert (NP : Forall (fun p => lo <= fst p /\ fst p + snd p <= N.of_nat (length (bytes (file st'))) /\ 0 < snd p) (dir (file st'))).
  { rewrite Forall_forall. intros p Hp. apply In_nth_error in Hp as [i Hi].
    assert (exists b, nth_error (segs st) i = Some b) as [b Hb].
    { destruct (nth_error (segs st) i) eqn:X; [eauto|]. apply nth_error_None in X. rewrite <- L1 in X.
      assert (Hl : (i < length (dir (file st')))%nat) by (apply nth_error_Some; intros Y; pose proof (eq_trans (eq_sym Hi) Y); discriminate). lia. }
    destruct (R i b Hb) as [(p' & Hp' & Y) _]. pose proof (eq_trans (eq_sym Hi) Hp') as Z. injection Z as <-. tauto. }
  split; [|split].
  - unfold store_ok, lazy_load. cbn [file segs sgaps]. fold mk. rewrite PM. unfold gt_init. repeat split; try discriminate.
    + intros b. rewrite cov_app, P. cbn [cov]. unfold covers. cbn [fst snd].
      iflia.
    + constructor; [cbn; lia|constructor].
    + unfold nonempty. eapply Forall_impl; [|exact NP]. intros p (A & B & C). exact C.
    + unfold last_end. cbn. lia.
    + rewrite Forall_map. eapply Forall_impl; [|exact NP]. intros p (A & B & C). unfold block_ok. cbn. split; [discriminate|].
      intros _. split; [exact B|reflexivity].
  - unfold lazy_load. cbn [segs]. fold mk. apply nth_ext'; [rewrite !map_length; lia|]. intros i Hi. rewrite !map_length in Hi.
    destruct (nth_error (segs st) i) as [b|] eqn:Hb; [|apply nth_error_None in Hb; lia].
    destruct (R i b Hb) as [(p & Hp & X & _) _]. erewrite (map_nth_error _ _ _ (map_nth_error mk _ _ Hp)), (map_nth_error _ _ _ Hb). f_equal. exact X.
  - apply nth_ext'; [rewrite !map_length; lia|]. intros i Hi. rewrite !map_length in Hi.
    destruct (nth_error (segs st) i) as [b|] eqn:Hb; [|apply nth_error_None in Hb; lia].
    destruct (R i b Hb) as [_ (b' & Hb' & X)]. erewrite (map_nth_error _ _ _ Hb'), (map_nth_error _ _ _ Hb). f_equal. exact X.
Qed.
