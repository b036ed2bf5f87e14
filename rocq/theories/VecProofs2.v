(** Proofs for VecModel: chunks. *)
From Verif Require Import Bytes Outcome IndexingModel VecModel VecSpec VecProofs.
Require Import Lia.
Local Open Scope nat_scope.
Local Opaque VCAP.

(** ** What a call leaves alone *)
Definition keeps (h h' : heap) (S : list nat) : Prop :=
  length (mem h) <= length (mem h') /\
  forall a, a < length (mem h) -> ~ In a S -> (forall cs, cells_of h a = Some cs -> cells_of h' a = Some cs) /\
                        (forall b, nth_error (bufs h) b = Some a -> nth_error (bufs h') b = Some a).
Lemma keeps_refl h S : keeps h h S.
Proof. split; [lia|]. auto. Qed.
Lemma keeps_trans h h1 h2 S T U : keeps h h1 S -> keeps h1 h2 T -> (forall a, In a S -> In a U) -> (forall a, In a T -> In a U) -> keeps h h2 U.
Proof.
  intros (L1 & K1) (L2 & K2) HS HT. split; [lia|]. intros a La Ha. destruct (K1 a) as (C1 & B1); [assumption|auto|]. destruct (K2 a) as (C2 & B2); [lia|auto|]. auto.
Qed.
Lemma keeps_more h h' S T : keeps h h' S -> (forall a, In a S -> In a T) -> keeps h h' T.
Proof. intros (L & K) H. split; [assumption|]. intros a La Ha. apply K; auto. Qed.
Lemma keeps_set h a cs : a < length (mem h) -> keeps h (set_cells h a cs) [a].
Proof.
  intros L. split. { unfold set_cells. cbn [mem]. rewrite length_list_set. lia. }
  intros a' _ N. split; [|auto]. intros c C. rewrite cells_set by assumption. replace (a' =? a) with false; [assumption|].
  symmetry. apply Nat.eqb_neq. intros ->. apply N. left. reflexivity.
Qed.

Inductive all3 {A B C} (R : A -> B -> C -> Prop) : list A -> list B -> list C -> Prop :=
| a3_nil : all3 R [] [] []
| a3_cons x y z xs ys zs : R x y z -> all3 R xs ys zs -> all3 R (x :: xs) (y :: ys) (z :: zs).
Inductive all4 {A B C D} (R : A -> B -> C -> D -> Prop) : list A -> list B -> list C -> list D -> Prop :=
| a4_nil : all4 R [] [] [] []
| a4_cons x y z w xs ys zs ws : R x y z w -> all4 R xs ys zs ws -> all4 R (x :: xs) (y :: ys) (z :: zs) (w :: ws).
Lemma all3_len {A B C} (R : A -> B -> C -> Prop) xs ys zs : all3 R xs ys zs -> length xs = length zs /\ length ys = length zs.
Proof. induction 1; cbn; intuition congruence. Qed.
Lemma all3_imp {A B C} (R S : A -> B -> C -> Prop) xs ys zs :
  (forall x y z, In x xs -> In y ys -> In z zs -> R x y z -> S x y z) -> all3 R xs ys zs -> all3 S xs ys zs.
Proof. intros H K. induction K; constructor; [apply H; auto; left; reflexivity|]. apply IHK. intros. apply H; auto; right; assumption. Qed.
Lemma all3_nth {A B C} (R : A -> B -> C -> Prop) xs ys zs k x z : all3 R xs ys zs -> nth_error xs k = Some x -> nth_error zs k = Some z ->
  exists y, In y ys /\ R x y z.
Proof.
  intros H. revert k. induction H; intros [|k] E F; cbn in E, F; try discriminate.
  - injection E as <-. injection F as <-. exists y. split; [left; reflexivity|assumption].
  - destruct (IHall3 _ E F) as (y' & I' & R'). exists y'. split; [right; assumption|assumption].
Qed.

Section OnCols.
  Context {A B : Type} (f : A -> heap -> vec -> res (heap * vec)) (R1 : heap -> A -> vec -> nat -> B -> Prop)
          (R2 : heap -> vec -> nat -> B -> Prop) (W : nat -> Prop).
  Hypothesis step : forall h x v a b, R1 h x v a b -> exists h' v' a', f x h v = Ok (h', v') /\ R2 h' v' a' b /\ keeps h h' [a] /\ (a' = a \/ length (mem h) <= a').
  Hypothesis st1 : forall h h' S x v a b, R1 h x v a b -> keeps h h' S -> ~ In a S -> (forall w, W w -> ~ In w S) -> R1 h' x v a b.
  Hypothesis st2 : forall h h' S v a b, R2 h v a b -> keeps h h' S -> ~ In a S -> R2 h' v a b.
  Hypothesis in1 : forall h x v a b, R1 h x v a b -> a < length (mem h).
  Hypothesis in2 : forall h v a b, R2 h v a b -> a < length (mem h).
  Lemma on_cols_ok xs vs hs bs h :
    all4 (R1 h) xs vs hs bs -> NoDup hs -> (forall w, W w -> ~ In w hs) ->
    exists h' vs' hs', on_cols f h (combine xs vs) = Ok (h', vs') /\ all3 (R2 h') vs' hs' bs /\ keeps h h' hs /\ NoDup hs' /\
    forall a, In a hs' -> In a hs \/ length (mem h) <= a.
  Proof.
    revert vs hs bs h. induction xs as [|x xs IH]; intros vs hs bs h H ND HW; inversion H as [|x' v a b xs' vs' hs' bs' Rh Rt]; subst; cbn [combine on_cols].
    - exists h, [], []. split; [reflexivity|]. split; [constructor|]. split; [apply keeps_refl|]. split; [constructor|]. intros a Ha. destruct Ha.
    - inversion ND as [|? ? Na ND']; subst. destruct (step _ _ _ _ _ Rh) as (h1 & v1 & a1 & E1 & P1 & K1 & F1). rewrite E1. cbn [rbind].
      assert (Rt1 : all4 (R1 h1) xs vs' hs' bs').
      { clear - st1 Rt K1 Na HW. assert (HW' : forall w, W w -> ~ In w [a]). { intros w Hw [->|[]]. apply (HW _ Hw). left. reflexivity. }
        clear HW. induction Rt; constructor.
        - eapply st1; [eassumption|eassumption| |assumption]. intros [->|[]]. apply Na. left. reflexivity.
        - apply IHRt; [intros Hn; apply Na; right; assumption]. }
      assert (IN : forall a0, In a0 hs' -> a0 < length (mem h)).
      { clear - Rt in1. induction Rt; intros a0 Ha; [destruct Ha|]. destruct Ha as [->|Ha]; [eapply in1; eassumption|auto]. }
      destruct (IH vs' hs' bs' h1 Rt1 ND') as (h2 & vs2 & hs2 & E2 & P2 & K2 & N2 & F2). { intros w Hw Hn. apply (HW _ Hw). right. assumption. }
      rewrite E2. cbn [rbind]. exists h2, (v1 :: vs2), (a1 :: hs2). split; [reflexivity|].
      assert (NA : ~ In a1 hs'). { intros Hn. destruct F1 as [->|F1]; [contradiction|]. apply IN in Hn. lia. }
      split. { constructor; [|assumption]. eapply st2; [exact P1|exact K2|exact NA]. }
      split. { eapply keeps_trans; [exact K1|exact K2| |]; intros a0 Ha; [destruct Ha as [->|[]]; left; reflexivity|right; assumption]. }
      split. { constructor; [|assumption]. intros Hn. apply F2 in Hn. destruct Hn as [Hn|Hn]; [contradiction|]. apply in2 in P1. lia. }
      intros a0 [->|Ha]. { destruct F1 as [->|F1]; [left; left; reflexivity|right; assumption]. }
      apply F2 in Ha. destruct Ha as [Ha|Ha]; [left; right; assumption|right]. destruct K1 as (L1 & _). lia.
  Qed.
End OnCols.

(** ** Columns *)
Definition appcol (h : heap) (c : nat) (v : vec) (a : nat) (l : list (option Z)) : Prop :=
  exists o b, v = Flat o /\ target h o a l c /\ length l <= c /\ buf o = Some b /\ nth_error (bufs h) b = Some a.
Definition viewcol (h : heap) (v : vec) (a : nat) (l : list (option Z)) : Prop :=
  exists f, good h f v l /\ (f = Plain \/ f = Selection) /\ dat (own_of v) = Some (a, 0) /\ a < length (mem h) /\ exists cs, cells_of h a = Some cs.
Definition colstate (g : option nat) (h : heap) : vec -> nat -> list (option Z) -> Prop :=
  match g with Some c => appcol h c | None => viewcol h end.

Lemma app_view h c v a l : appcol h c v a l -> viewcol h v a l.
Proof.
  intros (o & b & -> & (D & (cs & C & _) & _ & _ & R) & _ & _). exists Plain. split; [apply g_flat; assumption|]. split; [auto|]. split; [assumption|].
  split; [eapply cells_lt; eassumption|eauto].
Qed.
Lemma state_view g h v a l : colstate g h v a l -> viewcol h v a l.
Proof. destruct g; [apply app_view|auto]. Qed.
Lemma view_in h v a l : viewcol h v a l -> a < length (mem h).
Proof. intros (f & _ & _ & _ & L & _). assumption. Qed.
Lemma app_in h c v a l : appcol h c v a l -> a < length (mem h).
Proof. intros H. apply app_view in H. eapply view_in; eassumption. Qed.

Lemma row_reads_keep h h' S o a k j x : keeps h h' S -> ~ In a S -> dat o = Some (a, k) -> row_reads h o j x -> row_reads h' o j x.
Proof.
  intros (_ & K) N D (R & c & E & Z). split; [assumption|]. exists c. split; [|assumption]. rewrite D in *. cbn [rdc] in *.
  destruct (cells_of h a) as [cs|] eqn:C; [|discriminate]. rewrite (proj1 (K a (cells_lt _ _ _ C) N) _ C). assumption.
Qed.
Lemma app_keep h h' S c v a l : appcol h c v a l -> keeps h h' S -> ~ In a S -> appcol h' c v a l.
Proof.
  intros (o & b & E & (D & (cs & C & Lc) & Wm & Lm & R) & Ll & Hb & Nb) K N. exists o, b. split; [assumption|]. split.
  - split; [assumption|]. split. { exists cs. split; [|assumption]. apply (proj1 (proj2 K a (cells_lt _ _ _ C) N)). assumption. }
    split; [assumption|]. split; [assumption|]. intros i x Ni. eapply row_reads_keep; eauto.
  - split; [assumption|]. split; [assumption|]. apply (proj2 (proj2 K a (cells_lt _ _ _ C) N)). assumption.
Qed.
Lemma view_keep h h' S v a l : viewcol h v a l -> keeps h h' S -> ~ In a S -> viewcol h' v a l.
Proof.
  intros (f & G & F & D & L & cs & C) K N. exists f. split.
  - inversion G as [o l0 R|o b y l0 Eb Lb R Fo B|o q li l0 Dq M Ll R|o s d n l0 E Wi A]; subst; destruct F as [F|F]; try discriminate; cbn [own_of] in D.
    + apply g_flat. intros i x Ni. eapply row_reads_keep; eauto.
    + apply g_sel; auto. intros i x Ni. destruct (R _ _ Ni) as (j & J & Rj). exists j. split; [assumption|]. rewrite Dq in D. eapply row_reads_keep; eauto.
  - split; [assumption|]. split; [assumption|]. split; [destruct K; lia|]. exists cs. apply (proj1 (proj2 K a L N)). assumption.
Qed.
Lemma state_keep g h h' S v a l : colstate g h v a l -> keeps h h' S -> ~ In a S -> colstate g h' v a l.
Proof. destruct g; [apply app_keep|apply view_keep]. Qed.

(** *** New columns *)
Lemma keeps_new h h' : grows h h' -> (forall b' a', nth_error (bufs h) b' = Some a' -> nth_error (bufs h') b' = Some a') ->
  length (mem h) <= length (mem h') -> keeps h h' [].
Proof. intros G B L. split; [assumption|]. intros a _ _. split; [apply G|auto]. Qed.
Lemma new_cols_ok capacity : forall k h, exists h' vs, new_cols h k capacity = (h', vs) /\
  all3 (appcol h' capacity) vs (seq (length (mem h)) k) (repeat [] k) /\ keeps h h' [] /\ length (mem h') = length (mem h) + k.
Proof.
  induction k as [|k IH]; intros h; cbn [new_cols].
  - exists h, []. split; [reflexivity|]. split; [constructor|]. split; [apply keeps_refl|]. lia.
  - destruct (new_vec_ok h capacity) as (h1 & o & b & E & T & Hb & Nb & Gr & Gb & Lm). rewrite E. destruct (IH h1) as (h2 & vs & E2 & A & K & L2). rewrite E2.
    exists h2, (Flat o :: vs). split; [reflexivity|]. assert (K1 : keeps h h1 []) by (apply keeps_new; [assumption|assumption|lia]). split.
    + cbn [seq repeat]. constructor.
      * eapply app_keep; [|exact K|intros []]. exists o, b. split; [reflexivity|]. split; [assumption|]. split; [cbn; lia|]. auto.
      * rewrite Lm in A. exact A.
    + split; [|lia]. eapply keeps_trans; [exact K1|exact K| |]; auto.
Qed.

(** *** The steps *)
Lemma set_col_step c h (xs : list (option Z)) v a l : appcol h c v a [] /\ xs = l /\ length l <= c ->
  exists h' v' a', set_col h v 0 xs = Ok (h', v') /\ appcol h' c v' a' l /\ keeps h h' [a] /\ (a' = a \/ length (mem h) <= a').
Proof.
  intros (H & -> & L). pose proof (app_in _ _ _ _ _ H) as La. destruct H as (o & b & -> & T & _ & Hb & Nb).
  destruct (set_col_ok l h o a [] c T) as (cs & m & E & T'); [cbn; lia|]. cbn [length app] in E, T'. eexists _, _, a. split; [exact E|]. split.
  - eexists _, b. split; [reflexivity|]. split; [exact T'|]. split; [assumption|]. split; [exact Hb|exact Nb].
  - split; [apply keeps_set; assumption|auto].
Qed.
Lemma flatten_step g h n (x : unit) v a l : colstate g h v a l /\ length l = n ->
  exists h' v' a', flatten h v n = Ok (h', v') /\ colstate g h' v' a' l /\ keeps h h' [a] /\ (a' = a \/ length (mem h) <= a').
Proof.
  intros (H & <-). destruct g as [c|]; cbn [colstate] in *.
  - destruct H as (o & b & -> & H). cbn [flatten]. exists h, (Flat o), a. split; [reflexivity|]. split; [exists o, b; auto|]. split; [apply keeps_refl|auto].
  - destruct H as (f & G & F & D & L & cs & C).
    inversion G as [o l0 R|o b y l0 Eb Lb R Fo B|o q li l0 Dq M Ll R|o s d n l0 E Wi A]; subst; destruct F as [F|F]; try discriminate.
    + cbn [flatten]. exists h, (Flat o), a. split; [reflexivity|]. split. { exists Plain. split; [assumption|]. split; [auto|]. split; [assumption|]. split; [assumption|eauto]. } split; [apply keeps_refl|auto].
    + cbn [flatten]. destruct (copy_new h Selection _ l 0 G ltac:(discriminate)) with (capacity := length l) as (h1 & h2 & t & o' & b & E1 & E2 & T & Hb & Nb & Gb & Lm & Gr).
      { rewrite D. cbn. lia. } { lia. } { auto. } { lia. }
      rewrite E1, E2. exists h2, (Flat o'), (length (mem h)). split; [reflexivity|]. cbn [skipn] in T. destruct T as (T1 & (cs' & T2 & _) & _ & _ & T5). split.
      * exists Plain. split; [apply g_flat; assumption|]. split; [auto|]. split; [assumption|]. split; [lia|eauto].
      * split; [|right; lia]. apply keeps_more with (S := []); [|intros ? []]. apply keeps_new; [assumption|assumption|lia].
Qed.
(** [b]: what the source shows, the rows taken of it, what the target shows. *)
Definition takes (ix : indexing) (n : nat) (sl fl : list (option Z)) : Prop :=
  length fl = n /\ forall i x, nth_error fl i = Some x -> exists p, get_index ix i = Ok p /\ nth_error sl p = Some x.
Lemma copy_step (W : nat -> Prop) c ix n soff toff h s v a (b : list (option Z) * list (option Z) * list (option Z)) :
  (forall w, W w -> w <> a) ->
  (exists sa, W sa /\ viewcol h s sa (fst (fst b))) /\ appcol h c v a (snd b) /\ takes ix n (fst (fst b)) (snd (fst b)) /\ soff <= n /\
     length (snd b) + (n - soff) <= c /\ toff = length (snd b) ->
  exists h' v' a', copy_sel h s v ix n soff toff = Ok (h', v') /\ appcol h' c v' a' (snd b ++ skipn soff (snd (fst b))) /\ keeps h h' [a] /\ (a' = a \/ length (mem h) <= a').
Proof.
  destruct b as [[sl fl] tl]. cbn [fst snd]. intros HW ((sa & Hsa & V) & H & (<- & T) & Ls & Lc & ->). pose proof (app_in _ _ _ _ _ H) as La.
  destruct V as (f & G & F & D & L & cs & C). destruct H as (o & k & -> & Tg & _ & Hb & Nb).
  destruct (copy_good h f s sl o a tl c ix fl soff (length tl) G) as (cs' & m & E & T').
  { intros ->. destruct F; discriminate. } { assumption. } { rewrite D. cbn. auto. } { assumption. } { assumption. } { assumption. } { reflexivity. }
  { intros b ->. destruct F; discriminate. }
  eexists _, _, a. split; [exact E|]. split.
  - eexists _, k. split; [reflexivity|]. split; [exact T'|]. split; [rewrite app_length, skipn_length; lia|]. split; [exact Hb|exact Nb].
  - split; [apply keeps_set; assumption|auto].
Qed.
Lemma mresize_ok m n c l : mwf m -> c <= n -> c <= cnt m -> (forall i x, nth_error l i = Some x -> row_ok m i = Ok (present x)) -> length l <= c ->
  mwf (mresize m n) /\ n <= cnt (mresize m n) /\ forall i (x : option Z), nth_error l i = Some x -> row_ok (mresize m n) i = Ok (present x).
Proof.
  intros Wm Lc Lm R Ll. unfold mresize, mwf, row_ok in *. destruct (arr m) as [bl|] eqn:E.
  - destruct (n <=? cnt m) eqn:B.
    + apply Nat.leb_le in B. rewrite E. auto.
    + apply Nat.leb_gt in B. cbn [arr cnt]. rewrite app_length, repeat_length. split; [lia|]. split; [lia|]. intros i x N. specialize (R _ _ N).
      destruct (nth_error bl i) eqn:Nb; [|discriminate]. rewrite nth_error_app1 by (eapply nth_lt; eassumption). rewrite Nb. assumption.
  - cbn [arr cnt]. rewrite repeat_length. split; [reflexivity|]. split; [lia|]. intros i x N. specialize (R _ _ N). apply nth_lt in N.
    rewrite nth_repeat' by lia. assumption.
Qed.
Lemma resize_step c cur new h (x : unit) v a l : appcol h c v a l /\ length l = cur /\ c < new ->
  exists h' v' a', resize h v cur new = Ok (h', v') /\ appcol h' new v' a' l /\ keeps h h' [a] /\ (a' = a \/ length (mem h) <= a').
Proof.
  intros ((o & b & -> & (D & (cs & C & Lc) & Wm & Lm & R) & Ll & Hb & Nb) & <- & Ln). pose proof (cells_lt _ _ _ C) as La. unfold resize.
  replace (length l =? new) with false by (symmetry; apply Nat.eqb_neq; lia). rewrite D, Hb, C, Nb. cbn [Nat.add skipn].
  replace (Nat.min (length l) new) with (length l) by lia. replace (length l <=? length cs) with true by (symmetry; apply Nat.leb_le; lia).
  eexists _, _, (length (mem h)). split; [reflexivity|].
  destruct (mresize_ok (msk o) new c l Wm) as (M1 & M2 & M3). { lia. } { assumption. } { intros i y N. apply R. assumption. } { assumption. }
  set (fresh := firstn (length l) cs ++ repeat None (new - length l)).
  assert (CF : cells_of {| mem := list_set (mem h) a None ++ [Some fresh]; bufs := list_set (bufs h) b (length (mem h)) |} (length (mem h)) = Some fresh).
  { unfold cells_of. cbn [mem]. rewrite nth_error_app2 by (rewrite length_list_set; lia). rewrite length_list_set, Nat.sub_diag. reflexivity. }
  split.
  - eexists _, b. split; [reflexivity|]. split.
    + split; [reflexivity|]. split. { exists fresh. split; [exact CF|]. unfold fresh. rewrite app_length, firstn_length, repeat_length. lia. }
      split; [exact M1|]. split; [exact M2|]. intros i y N. split; [cbn [msk]; apply M3; assumption|]. destruct (R _ _ N) as (_ & d & Rd & Z). exists d.
      split; [|assumption]. cbn [dat rdc]. rewrite CF. rewrite D in Rd. cbn [rdc] in Rd. rewrite C in Rd. cbn [Nat.add] in *.
      pose proof (nth_lt _ _ _ N) as Li. unfold fresh. rewrite nth_error_app1 by (rewrite firstn_length; lia). rewrite nth_firstn.
      replace (i <? length l) with true by (symmetry; apply Nat.ltb_lt; assumption). assumption.
    + split; [lia|]. split; [reflexivity|]. cbn [bufs]. rewrite nth_list_set, Nat.eqb_refl.
      replace (b <? length (bufs h)) with true by (symmetry; apply Nat.ltb_lt; eapply nth_lt; eassumption). reflexivity.
  - split; [|right; lia]. split. { cbn [mem]. rewrite app_length, length_list_set. cbn. lia. }
    intros a' _ Na. assert (Ne : a' <> a). { intros ->. apply Na. left. reflexivity. } split.
    + intros c' C'. pose proof (cells_lt _ _ _ C') as L'. unfold cells_of in *. cbn [mem]. rewrite nth_error_app1 by (rewrite length_list_set; assumption).
      rewrite nth_list_set. replace (a' =? a) with false by (symmetry; apply Nat.eqb_neq; assumption). assumption.
    + intros b' N'. cbn [bufs]. rewrite nth_list_set. replace (b' =? b) with false; [assumption|]. symmetry. apply Nat.eqb_neq. intros ->. congruence.
Qed.

(** ** Chunks *)
Definition lens (n : nat) (t : list (list (option Z))) : Prop := forall l, In l t -> length l = n.
Lemma even_lens t : even t = true -> lens (rows t) t.
Proof. unfold even. rewrite forallb_forall. intros H l I0. apply Nat.eqb_eq. auto. Qed.
Lemma lens_rows n t : lens n t -> t <> [] -> rows t = n.
Proof. destruct t as [|l t]; [congruence|]. intros H _. apply H. left. reflexivity. Qed.

Definition chunk_ok (g : option nat) (h : heap) (hs : list nat) (c : chunk) (t : list (list (option Z))) : Prop :=
  all3 (colstate g h) (cols c) hs t /\ lens (count c) t /\ t <> [] /\ (forall cp, g = Some cp -> cap c = cp).
Lemma chunk_shows g h hs c t : chunk_ok g h hs c t -> shows h c t.
Proof.
  intros (A & L & NE & _). split; [symmetry; apply lens_rows; assumption|]. split; [apply (all3_len _ _ _ _ A)|]. intros k v l Nv Nl i x Ni.
  destruct (all3_nth _ _ _ _ _ _ _ A Nv Nl) as (a & _ & S). apply state_view in S. destruct S as (f & G & _). eapply good_value; eassumption.
Qed.
Lemma chunk_keep g h h' S hs c t : chunk_ok g h hs c t -> keeps h h' S -> (forall a, In a hs -> ~ In a S) -> chunk_ok g h' hs c t.
Proof.
  intros (A & R) K D. split; [|exact R]. eapply all3_imp; [|exact A]. intros v a l _ Ia _ H. eapply state_keep; [exact H|exact K|auto].
Qed.
Lemma chunk_in g h hs c t a : chunk_ok g h hs c t -> In a hs -> a < length (mem h).
Proof.
  intros (A & _) I0. induction A; [destruct I0|]. destruct I0 as [->|I0]; [|auto]. apply state_view in H. eapply view_in; eassumption.
Qed.

(** *** Make *)
Lemma all4_new c h (t : list (list (option Z))) : forall vs hs, all3 (appcol h c) vs hs (repeat [] (length t)) -> (forall l, In l t -> length l <= c) ->
  all4 (fun xs v a l => appcol h c v a [] /\ xs = l /\ length l <= c) t vs hs t.
Proof.
  induction t as [|l t IH]; intros vs hs H L; cbn [length repeat] in H; inversion H; subst; constructor.
  - split; [assumption|]. split; [reflexivity|]. apply L. left. reflexivity.
  - apply IH; [assumption|]. intros l' I'. apply L. right. assumption.
Qed.
Lemma make_ok h t capacity n : lens n t -> t <> [] -> n <= capacity ->
  exists h1 c h2 vs hs, new_chunk h (length t) capacity = (h1, c) /\ set_cols h1 (cols c) t = Ok (h2, vs) /\
  chunk_ok (Some capacity) h2 hs {| cols := vs; count := n; cap := capacity |} t /\ keeps h h2 [] /\ NoDup hs /\ forall a, In a hs -> length (mem h) <= a.
Proof.
  intros L NE Lc. unfold new_chunk. destruct (new_cols_ok capacity (length t) h) as (h1 & vs & E & A & K & Lm). rewrite E.
  eexists h1, _. cbn [cols]. unfold set_cols.
  destruct (on_cols_ok (fun xs h v => set_col h v 0 xs) (fun h xs v a l => appcol h capacity v a [] /\ xs = l /\ length l <= capacity)
              (fun h v a l => appcol h capacity v a l) (fun _ => False)) with (xs := t) (vs := vs) (hs := seq (length (mem h)) (length t)) (bs := t) (h := h1)
    as (h2 & vs2 & hs2 & E2 & A2 & K2 & N2 & F2).
  { intros. apply set_col_step. assumption. }
  { intros h0 h' S x v a b (Ha & Hb) Kp Na _. split; [eapply app_keep; eassumption|assumption]. }
  { intros. eapply app_keep; eassumption. }
  { intros h0 x v a b (Ha & _). eapply app_in; eassumption. }
  { intros. eapply app_in; eassumption. }
  { apply all4_new; [assumption|]. intros l I0. rewrite (L l I0). assumption. }
  { apply seq_NoDup. }
  { intros w []. }
  exists h2, vs2, hs2. split; [reflexivity|]. split; [exact E2|]. split.
  { split; [exact A2|]. split; [exact L|]. split; [exact NE|]. intros cp Hc. injection Hc as <-. reflexivity. }
  split. { split; [destruct K, K2; lia|]. intros a La _. destruct K as (Lk & K). destruct K2 as (_ & K2). destruct (K a) as (C1 & B1); [assumption|auto|].
    destruct (K2 a) as (C2 & B2); [lia| |split; auto]. intros I0. apply in_seq in I0. lia. }
  split; [assumption|]. intros a I0. apply F2 in I0. destruct I0 as [I0|I0]; [apply in_seq in I0; lia|lia].
Qed.

(** *** Choose *)
Lemma pick_all_len t ix t' : pick_all t ix = Some t' -> length t' = length t /\ lens (length ix) t'.
Proof.
  revert t'. induction t as [|l t IH]; cbn; intros t' H.
  - injection H as <-. split; [reflexivity|]. intros l [].
  - destruct (pick l ix) as [x|] eqn:E; [|discriminate]. destruct (pick_all t ix) as [y|] eqn:F; [|discriminate]. injection H as <-.
    destruct (IH _ eq_refl) as (L & N). split; [cbn; congruence|]. intros l' [<-|I0]; [apply (pick_nth _ _ _ E)|auto].
Qed.
Lemma slice_cols_ok h ix : forall vs hs t t', all3 (viewcol h) vs hs t -> pick_all t ix = Some t' ->
  exists vs', slice_cols vs (Some ix) (length ix) = Ok vs' /\ all3 (viewcol h) vs' hs t'.
Proof.
  intros vs hs t t' H. revert t'. induction H as [|v a l vs hs t V A IH]; cbn [pick_all slice_cols]; intros t' P.
  - injection P as <-. exists []. split; [reflexivity|constructor].
  - destruct (pick l ix) as [x|] eqn:E; [|discriminate]. destruct (pick_all t ix) as [y|] eqn:F; [|discriminate]. injection P as <-.
    destruct V as (f & G & Ff & D & La & C). destruct (slice_sel_good h f v l ix x (length ix) G) as (v' & Es & G' & D').
    { intros ->. destruct Ff; discriminate. } { assumption. } { reflexivity. } { intros b ->. destruct Ff; discriminate. }
    rewrite Es. cbn [rbind]. destruct (IH _ eq_refl) as (vs' & E' & A'). rewrite E'. cbn [rbind]. exists (v' :: vs'). split; [reflexivity|].
    constructor; [|assumption]. eexists. split; [exact G'|]. split; [destruct Ff as [->| ->]; auto|]. split; [congruence|]. auto.
Qed.
Lemma choose_ok g h hs c t ix t' : chunk_ok g h hs c t -> pick_all t ix = Some t' ->
  exists c', chunk_slice c (Some ix) (length ix) = Ok c' /\ chunk_ok None h hs c' t'.
Proof.
  intros (A & L & NE & _) P. destruct (pick_all_len _ _ _ P) as (L1 & L2). unfold chunk_slice.
  destruct (slice_cols_ok h ix (cols c) hs t t') as (vs' & E & A'). { eapply all3_imp; [|exact A]. intros. eapply state_view; eassumption. } { assumption. }
  rewrite E. cbn [rbind]. eexists. split; [reflexivity|]. split; [exact A'|]. split; [exact L2|]. split; [|discriminate].
  intros ->. destruct t; [congruence|discriminate].
Qed.

(** *** Loops with no argument *)
Lemma combine_tt {A} (l : list A) : combine (repeat tt (length l)) l = map (pair tt) l.
Proof. induction l; cbn; congruence. Qed.
Lemma all4_tt {B C D} (R : B -> C -> D -> Prop) xs ys zs : all3 R xs ys zs -> all4 (fun _ : unit => R) (repeat tt (length xs)) xs ys zs.
Proof. induction 1; cbn [length repeat]; constructor; assumption. Qed.

Lemma write_out_ok g h hs c t : chunk_ok g h hs c t -> NoDup hs ->
  exists h' c' hs', chunk_flatten h c = Ok (h', c') /\ chunk_ok g h' hs' c' t /\ keeps h h' hs /\ NoDup hs' /\ forall a, In a hs' -> In a hs \/ length (mem h) <= a.
Proof.
  intros (A & L & NE & Cp) ND. unfold chunk_flatten, flatten_cols. rewrite <- combine_tt.
  destruct (on_cols_ok (fun (_ : unit) h v => flatten h v (count c)) (fun h _ v a l => colstate g h v a l /\ length l = count c)
              (fun h v a l => colstate g h v a l) (fun _ => False)) with (xs := repeat tt (length (cols c))) (vs := cols c) (hs := hs) (bs := t) (h := h)
    as (h2 & vs2 & hs2 & E2 & A2 & K2 & N2 & F2).
  { intros h0 x v a l H. apply (flatten_step g h0 (count c) x v a l). assumption. }
  { intros h0 h' S x v a b (Ha & Hb) Kp Na _. split; [eapply state_keep; eassumption|assumption]. }
  { intros. eapply state_keep; eassumption. }
  { intros h0 x v a b (Ha & _). eapply view_in, state_view; eassumption. }
  { intros. eapply view_in, state_view; eassumption. }
  { apply all4_tt with (R := fun v a l => colstate g h v a l /\ length l = count c). eapply all3_imp; [|exact A]. intros v a l _ _ Il H. split; [assumption|]. apply L. assumption. }
  { assumption. } { intros w []. }
  rewrite E2. cbn [rbind]. eexists h2, _, hs2. split; [reflexivity|]. split; [|auto]. split; [exact A2|]. split; [exact L|]. split; [exact NE|exact Cp].
Qed.
Lemma resize_cols_ok cp new h hs vs n t : all3 (appcol h cp) vs hs t -> lens n t -> cp < new -> NoDup hs ->
  exists h' vs' hs', resize_cols h vs n new = Ok (h', vs') /\ all3 (appcol h' new) vs' hs' t /\ keeps h h' hs /\ NoDup hs' /\ forall a, In a hs' -> In a hs \/ length (mem h) <= a.
Proof.
  intros A L Lt ND. unfold resize_cols. rewrite <- combine_tt.
  apply (on_cols_ok (fun (_ : unit) h v => resize h v n new) (fun h _ v a l => appcol h cp v a l /\ length l = n /\ cp < new)
              (fun h v a l => appcol h new v a l) (fun _ => False)).
  { intros h0 x v a l H. apply (resize_step cp n new h0 x v a l). assumption. }
  { intros h0 h' S x v a b (Ha & Hb) Kp Na _. split; [eapply app_keep; eassumption|assumption]. }
  { intros. eapply app_keep; eassumption. }
  { intros h0 x v a b (Ha & _). eapply app_in; eassumption. }
  { intros. eapply app_in; eassumption. }
  { apply all4_tt with (R := fun v a l => appcol h cp v a l /\ length l = n /\ cp < new). eapply all3_imp; [|exact A]. intros v a l _ _ Il H. split; [assumption|]. split; [apply L; assumption|assumption]. }
  { assumption. } { intros w []. }
Qed.

(** *** Append and copies *)
(** The target columns of [tt], those of the source and the rows taken from it. *)
Fixpoint zip3 (us ss ts : list (list (option Z))) : list (list (option Z) * list (option Z) * list (option Z)) :=
  match us, ss, ts with u :: us, s :: ss, t :: ts => (u, s, t) :: zip3 us ss ts | _, _, _ => [] end.
Lemma copy_cols_ok g cp h shs ths ss ts us fs tbl ix n soff toff :
  all3 (colstate g h) ss shs us -> all3 (appcol h cp) ts ths tbl -> length us = length tbl ->
  Forall2 (takes ix n) us fs -> lens toff tbl -> soff <= n -> toff + (n - soff) <= cp -> NoDup ths -> (forall a, In a shs -> ~ In a ths) ->
  exists h' vs' hs', copy_cols h ss ts ix n soff toff = Ok (h', vs') /\ all3 (appcol h' cp) vs' hs' (beside tbl (map (skipn soff) fs)) /\
    keeps h h' ths /\ NoDup hs' /\ forall a, In a hs' -> In a ths \/ length (mem h) <= a.
Proof.
  intros As At Lu Tk Lt Ls Lc ND Dj. unfold copy_cols.
  destruct (on_cols_ok (fun s h t => copy_sel h s t ix n soff toff)
     (fun h s v a b => (forall w, In w shs -> w <> a) /\ (exists sa, In sa shs /\ viewcol h s sa (fst (fst b))) /\ appcol h cp v a (snd b) /\ takes ix n (fst (fst b)) (snd (fst b)) /\ soff <= n /\
     length (snd b) + (n - soff) <= cp /\ toff = length (snd b))
     (fun h v a b => appcol h cp v a (snd b ++ skipn soff (snd (fst b)))) (fun w => In w shs)) with (xs := ss) (vs := ts) (hs := ths) (bs := zip3 us fs tbl) (h := h)
    as (h2 & vs2 & hs2 & E2 & A2 & K2 & N2 & F2).
  { intros h0 s v a b (Hn & H). apply (copy_step (fun w => In w shs)); assumption. }
  { intros h0 h' S x v a b (Hn & (sa & Isa & Vs) & Ha & Hr) Kp Na HW. split; [assumption|]. split; [|split; [eapply app_keep; eassumption|assumption]].
    exists sa. split; [assumption|]. eapply view_keep; [eassumption|eassumption|auto]. }
  { intros. eapply app_keep; eassumption. }
  { intros h0 x v a b (_ & _ & Ha & _). eapply app_in; eassumption. }
  { intros. eapply app_in; eassumption. }
  { clear ND. assert (Dj' : forall a w, In a ths -> In w shs -> w <> a). { intros a w Ia Iw ->. apply (Dj a); assumption. }
    assert (Inc : forall w, In w shs -> In w shs) by auto. revert Inc Dj'. generalize shs at 2 3 4 5 as all. clear Dj. intros all Inc Dj.
    revert fs Tk ts ths tbl At Lu Lt Dj. induction As as [|s sa u ss shs us Vs As IH]; intros fs Tk ts ths tbl At Lu Lt Dj.
    - destruct tbl; [|discriminate]. inversion At; subst. inversion Tk; subst. constructor.
    - inversion At as [|v a l ts' ths' tbl' Va At']; subst; [discriminate|]. inversion Tk as [|? f ? fs' Tu Tk']; subst. cbn [zip3]. constructor.
      + cbn [fst snd]. split. { intros w Iw. apply Dj; [left; reflexivity|assumption]. }
        split. { exists sa. split; [apply Inc; left; reflexivity|]. eapply state_view; eassumption. }
        split; [assumption|]. split; [assumption|]. split; [assumption|]. rewrite (Lt l) by (left; reflexivity). auto.
      + apply IH; auto.
        * intros w Iw. apply Inc. right. assumption.
        * intros l' Il. apply Lt. right. assumption.
        * intros a' w Ia Iw. apply Dj; [right; assumption|assumption]. }
  { assumption. } { intros w Hw. apply Dj. assumption. }
  exists h2, vs2, hs2. split; [exact E2|]. split; [|auto].
  { clear - A2 Lu Tk. revert fs Tk tbl Lu vs2 hs2 A2. induction us as [|u us IH]; intros fs Tk tbl Lu vs2 hs2 A2; destruct tbl as [|l tbl]; try discriminate; inversion Tk; subst; cbn [zip3 map beside] in *.
    - inversion A2; subst. constructor.
    - inversion A2; subst. cbn [fst snd] in *. constructor; [assumption|]. eapply IH; eauto. }
Qed.

Lemma takes_all n us : lens n us -> Forall2 (takes None n) us us.
Proof.
  induction us as [|u us IH]; intros L; constructor.
  - split; [apply L; left; reflexivity|]. intros i x N. exists i. split; [reflexivity|assumption].
  - apply IH. intros l I0. apply L. right. assumption.
Qed.
Lemma takes_pick ix us : forall fs, pick_all us ix = Some fs -> Forall2 (takes (Some ix) (length ix)) us fs.
Proof.
  induction us as [|u us IH]; cbn; intros fs H.
  - injection H as <-. constructor.
  - destruct (pick u ix) as [x|] eqn:E; [|discriminate]. destruct (pick_all us ix) as [y|] eqn:F; [|discriminate]. injection H as <-.
    destruct (pick_nth _ _ _ E) as (L & N). constructor; [|auto]. split; [assumption|]. intros i z Nz. destruct (N _ _ Nz) as (p & P1 & P2). exists p.
    split; [apply get_index_some; assumption|assumption].
Qed.
Lemma takes_lens ix n us fs : Forall2 (takes ix n) us fs -> length us = length fs /\ lens n fs.
Proof.
  induction 1 as [|u f us fs (T & _) _ (L & I0)]; [split; [reflexivity|intros l []]|]. split; [cbn; congruence|]. intros l [<-|H]; auto.
Qed.
Lemma beside_lens n m a b : length a = length b -> lens n a -> lens m b -> lens (n + m) (beside a b) /\ length (beside a b) = length a.
Proof.
  revert b. induction a as [|x a IH]; intros [|y b] L La Lb; try discriminate; cbn [beside].
  - split; [intros l []|reflexivity].
  - destruct (IH b) as (I1 & I2). { injection L as L. assumption. } { intros l H. apply La. right. assumption. } { intros l H. apply Lb. right. assumption. }
    split; [|cbn; congruence]. intros l [<-|H]; [|auto]. rewrite app_length, (La x), (Lb y) by (left; reflexivity). reflexivity.
Qed.
Lemma skip_all (fs : list (list (option Z))) : map (skipn 0) fs = fs.
Proof. rewrite <- (map_id fs) at 2. apply map_ext. reflexivity. Qed.
Lemma pow2_ge n : n <= next_pow2 n.
Proof.
  unfold next_pow2. destruct (n =? 0) eqn:E. { apply Nat.eqb_eq in E. lia. } apply Nat.eqb_neq in E.
  destruct (Nat.eq_dec n 1) as [->|N]; [cbn; lia|]. apply (Nat.log2_up_spec n). lia.
Qed.

Lemma append_ok g cp h ths shs t s tbl us grow sel fs :
  chunk_ok (Some cp) h ths t tbl -> chunk_ok g h shs s us -> NoDup ths -> (forall a, In a shs -> ~ In a ths) -> length tbl = length us -> count s <> 0 ->
  (match sel with Some ix => pick_all us ix | None => Some us end) = Some fs ->
  let n := match sel with Some ix => length ix | None => count s end in
  grow = true \/ count t + n <= cp ->
  exists h' t' hs', append h t s grow sel = Ok (h', t') /\
    chunk_ok (Some (if cp <? count t + n then next_pow2 (count t + n) else cp)) h' hs' t' (beside tbl fs) /\
    keeps h h' ths /\ NoDup hs' /\ forall a, In a hs' -> In a ths \/ length (mem h) <= a.
Proof.
  intros Ht Hs ND Dj Le Nz Sel n Gr. pose proof Ht as (At & Lt & Nt & Ct). pose proof Hs as (As & Ls & Ns & _). cbn [colstate] in At.
  specialize (Ct cp eq_refl). unfold append. fold n. replace (count s =? 0) with false by (symmetry; apply Nat.eqb_neq; assumption).
  destruct (all3_len _ _ _ _ At) as (Lct & _). destruct (all3_len _ _ _ _ As) as (Lcs & _).
  replace (length (cols t) =? length (cols s)) with true by (symmetry; apply Nat.eqb_eq; lia). cbn [negb].
  assert (Tk : Forall2 (takes sel n) us fs).
  { unfold n. destruct sel as [ix|]; [apply takes_pick; assumption|]. injection Sel as <-. apply takes_all. assumption. }
  destruct (takes_lens _ _ _ _ Tk) as (Lf & Lfs). destruct (beside_lens (count t) n tbl fs) as (Lb & Lb'); [congruence|assumption|assumption|].
  assert (NB : beside tbl fs <> []). { intros E. rewrite E in Lb'. destruct tbl; [congruence|discriminate]. }
  assert (IN : forall a, In a shs -> a < length (mem h)). { intros a Ia. eapply chunk_in; eassumption. }
  rewrite Ct. destruct (cp <? count t + n) eqn:E.
  - apply Nat.ltb_lt in E. destruct Gr as [-> | Gr]; [|lia]. pose proof (pow2_ge (count t + n)) as Pw.
    destruct (resize_cols_ok cp (next_pow2 (count t + n)) h ths (cols t) (count t) tbl At Lt) as (h1 & vs1 & hs1 & E1 & A1 & K1 & N1 & F1); [lia|assumption|].
    rewrite E1. cbn [rbind cols count]. pose proof (chunk_keep _ _ _ _ _ _ _ Hs K1 Dj) as (As1 & _).
    destruct (copy_cols_ok g (next_pow2 (count t + n)) h1 shs hs1 (cols s) vs1 us fs tbl sel n 0 (count t) As1 A1) as (h2 & vs2 & hs2 & E2 & A2 & K2 & N2 & F2); auto with arith.
    { lia. }
    { intros a Ia Ib. apply F1 in Ib. destruct Ib as [Ib|Ib]; [apply (Dj a); assumption|]. apply IN in Ia. lia. }
    rewrite E2. cbn [rbind]. rewrite skip_all in A2. eexists h2, _, hs2. split; [reflexivity|]. split.
    { split; [exact A2|]. cbn [count cap]. split; [assumption|]. split; [assumption|]. intros c Hc. injection Hc as <-. reflexivity. }
    destruct K1 as (Lk & K1). destruct K2 as (Lk2 & K2). split.
    { split; [lia|]. intros a La Na. destruct (K1 a La Na) as (C1 & B1). destruct (K2 a) as (C2 & B2); [lia| |auto].
      intros Ib. apply F1 in Ib. destruct Ib as [Ib|Ib]; [contradiction|lia]. }
    split; [assumption|]. intros a Ia. apply F2 in Ia. destruct Ia as [Ia|Ia]; [auto|right; lia].
  - apply Nat.ltb_ge in E. cbn [rbind].
    destruct (copy_cols_ok g cp h shs ths (cols s) (cols t) us fs tbl sel n 0 (count t) As At) as (h2 & vs2 & hs2 & E2 & A2 & K2 & N2 & F2); auto with arith.
    { lia. }
    rewrite E2. cbn [rbind]. rewrite skip_all in A2. eexists h2, _, hs2. split; [reflexivity|]. split; [|auto].
    split; [exact A2|]. cbn [count cap]. split; [assumption|]. split; [assumption|]. intros c Hc. injection Hc as <-. assumption.
Qed.

Lemma beside_nil n (fs : list (list (option Z))) : length fs = n -> beside (repeat [] n) fs = fs.
Proof. intros <-. induction fs; cbn; congruence. Qed.
Lemma copy_of_ok g h shs s us from capacity : chunk_ok g h shs s us -> from <= count s -> count s - from <= capacity ->
  exists h1 t h2 t' hs, new_chunk h (length (cols s)) capacity = (h1, t) /\ chunk_copy h1 s t from = Ok (h2, t') /\
    chunk_ok (Some capacity) h2 hs t' (map (skipn from) us) /\ keeps h h2 [] /\ NoDup hs /\ forall a, In a hs -> length (mem h) <= a.
Proof.
  intros Hs Lf Lc. pose proof Hs as (As & Ls & Ns & _). destruct (all3_len _ _ _ _ As) as (Lcs & _). unfold new_chunk.
  destruct (new_cols_ok capacity (length (cols s)) h) as (h1 & vs & E & A & K & Lm). rewrite E.
  assert (IN : forall a, In a shs -> a < length (mem h)). { intros a Ia. eapply chunk_in; eassumption. }
  pose proof (chunk_keep _ _ _ _ _ _ _ Hs K ltac:(auto)) as (As1 & _).
  destruct (copy_cols_ok g capacity h1 shs _ (cols s) vs us us _ None (count s) from 0 As1 A) as (h2 & vs2 & hs2 & E2 & A2 & K2 & N2 & F2).
  { rewrite repeat_length. congruence. } { apply takes_all. assumption. } { intros l Hl. apply repeat_spec in Hl. subst. reflexivity. }
  { assumption. } { lia. } { apply seq_NoDup. } { intros a Ia Ib. apply IN in Ia. apply in_seq in Ib. lia. }
  rewrite beside_nil in A2 by (rewrite map_length; congruence).
  eexists h1, _, h2, _, hs2. split; [reflexivity|]. unfold chunk_copy. cbn [cols cap]. rewrite E2. cbn [rbind]. split; [reflexivity|]. split.
  { split; [exact A2|]. cbn [count cap]. split. { intros l Hl. apply in_map_iff in Hl. destruct Hl as (u & <- & Hu). rewrite skipn_length, (Ls u Hu). reflexivity. }
    split. { destruct us; [congruence|discriminate]. } intros c Hc. congruence. }
  destruct K as (Lk & K). destruct K2 as (Lk2 & K2). split.
  { split; [lia|]. intros a La _. destruct (K a La) as (C1 & B1); [auto|]. destruct (K2 a) as (C2 & B2); [lia| |auto]. intros Ib. apply in_seq in Ib. lia. }
  split; [assumption|]. intros a Ia. apply F2 in Ia. destruct Ia as [Ia|Ia]; [apply in_seq in Ia; lia|lia].
Qed.

(** ** Histories *)
Definition einv (g : list (option nat)) (h : heap) (e : list chunk) (ts : list (list (list (option Z)))) : Prop :=
  length e = length ts /\ length g = length ts /\ exists hom : nat -> list nat,
  (forall k c t gk, nth_error e k = Some c -> nth_error ts k = Some t -> nth_error g k = Some gk -> chunk_ok gk h (hom k) c t /\ NoDup (hom k)) /\
  (forall j k a, j < length ts -> k < length ts -> j <> k -> In a (hom j) -> ~ In a (hom k)).

Lemma einv_get g h e ts k t : einv g h e ts -> nth_error ts k = Some t -> exists c gk, nth_error e k = Some c /\ nth_error g k = Some gk.
Proof.
  intros (L1 & L2 & _) N. apply nth_lt in N. destruct (nth_ex e k) as (c & Nc); [lia|]. destruct (nth_ex g k) as (gk & Ng); [lia|]. eauto.
Qed.
Definition put (hom : nat -> list nat) (k : nat) (hs : list nat) (j : nat) : list nat := if j =? k then hs else hom j.
Lemma put_same hom k hs : put hom k hs k = hs.
Proof. unfold put. rewrite Nat.eqb_refl. reflexivity. Qed.
Lemma put_other hom k hs j : j <> k -> put hom k hs j = hom j.
Proof. intros N. unfold put. apply Nat.eqb_neq in N. rewrite N. reflexivity. Qed.

Lemma einv_add g h e ts hom h' hs c t gk :
  length e = length ts -> length g = length ts ->
  (forall k c t gk, nth_error e k = Some c -> nth_error ts k = Some t -> nth_error g k = Some gk -> chunk_ok gk h (hom k) c t /\ NoDup (hom k)) ->
  (forall j k a, j < length ts -> k < length ts -> j <> k -> In a (hom j) -> ~ In a (hom k)) ->
  chunk_ok gk h' hs c t -> keeps h h' [] -> NoDup hs -> (forall a, In a hs -> length (mem h) <= a) ->
  einv (g ++ [gk]) h' (e ++ [c]) (ts ++ [t]).
Proof.
  intros L1 L2 H D C K N F. split; [rewrite !app_length; cbn; lia|]. split; [rewrite !app_length; cbn; lia|]. exists (put hom (length ts) hs).
  assert (IN : forall k a, k < length ts -> In a (hom k) -> a < length (mem h)).
  { intros k a Lk Ia. destruct (nth_ex e k) as (ck & Nc); [lia|]. destruct (nth_ex g k) as (gk' & Ng); [lia|]. destruct (nth_ex ts k Lk) as (tk & Nt).
    eapply chunk_in; [apply (H _ _ _ _ Nc Nt Ng)|assumption]. }
  split.
  - intros k ck tk gk' Nc Nt Ng. pose proof (nth_lt _ _ _ Nt) as Lk. rewrite app_length in Lk. cbn [length] in Lk.
    destruct (Nat.eq_dec k (length ts)) as [->|Ne].
    + rewrite put_same. rewrite nth_error_app2 in Nt by lia. rewrite nth_error_app2 in Nc by lia. rewrite nth_error_app2 in Ng by lia. rewrite L1 in Nc. rewrite L2 in Ng. rewrite Nat.sub_diag in *. cbn in *.
      injection Nt as <-. injection Nc as <-. injection Ng as <-. auto.
    + rewrite put_other by assumption. rewrite nth_error_app1 in Nt by lia. rewrite nth_error_app1 in Nc by lia. rewrite nth_error_app1 in Ng by lia. destruct (H _ _ _ _ Nc Nt Ng) as (Hc & Hn). split; [|assumption].
      eapply chunk_keep; eauto.
  - intros j k a Lj Lk Ne Ia Ib. rewrite app_length in Lj, Lk. cbn [length] in Lj, Lk.
    destruct (Nat.eq_dec j (length ts)) as [->|Nj]; destruct (Nat.eq_dec k (length ts)) as [->|Nk]; [congruence| | |].
    + rewrite put_same in Ia. rewrite put_other in Ib by assumption. apply IN in Ib; [|lia]. apply F in Ia. lia.
    + rewrite put_same in Ib. rewrite put_other in Ia by assumption. apply IN in Ia; [|lia]. apply F in Ib. lia.
    + rewrite put_other in Ia, Ib by assumption. apply (D j k a); [lia|lia|assumption..].
Qed.
Lemma einv_set g h e ts hom h' i c t gk hs :
  length e = length ts -> length g = length ts ->
  (forall k c t gk, nth_error e k = Some c -> nth_error ts k = Some t -> nth_error g k = Some gk -> chunk_ok gk h (hom k) c t /\ NoDup (hom k)) ->
  (forall j k a, j < length ts -> k < length ts -> j <> k -> In a (hom j) -> ~ In a (hom k)) ->
  i < length ts -> chunk_ok gk h' hs c t -> keeps h h' (hom i) -> NoDup hs -> (forall a, In a hs -> In a (hom i) \/ length (mem h) <= a) ->
  einv (list_set g i gk) h' (list_set e i c) (list_set ts i t).
Proof.
  intros L1 L2 H D Li C K N F. split; [rewrite !length_list_set; assumption|]. split; [rewrite !length_list_set; assumption|]. exists (put hom i hs).
  assert (IN : forall k a, k < length ts -> In a (hom k) -> a < length (mem h)).
  { intros k a Lk Ia. destruct (nth_ex e k) as (ck & Nc); [lia|]. destruct (nth_ex g k) as (gk' & Ng); [lia|]. destruct (nth_ex ts k Lk) as (tk & Nt).
    eapply chunk_in; [apply (H _ _ _ _ Nc Nt Ng)|assumption]. }
  split.
  - intros k ck tk gk' Nc Nt Ng. rewrite nth_list_set in Nc. rewrite nth_list_set in Nt. rewrite nth_list_set in Ng.
    replace (i <? length e) with true in Nc by (symmetry; apply Nat.ltb_lt; lia). replace (i <? length g) with true in Ng by (symmetry; apply Nat.ltb_lt; lia).
    replace (i <? length ts) with true in Nt by (symmetry; apply Nat.ltb_lt; lia). rewrite andb_true_r in *. unfold put. destruct (k =? i) eqn:E.
    + injection Nc as <-. injection Nt as <-. injection Ng as <-. auto.
    + destruct (H _ _ _ _ Nc Nt Ng) as (Hc & Hn). split; [|assumption]. eapply chunk_keep; [exact Hc|exact K|]. apply Nat.eqb_neq in E.
      intros a Ia. apply (D k i a); auto. eapply nth_lt; eassumption.
  - intros j k a Lj Lk Ne Ia Ib. rewrite length_list_set in Lj, Lk.
    destruct (Nat.eq_dec j i) as [->|Nj]; destruct (Nat.eq_dec k i) as [->|Nk]; [congruence| | |].
    + rewrite put_same in Ia. rewrite put_other in Ib by assumption. apply F in Ia. destruct Ia as [Ia|Ia]; [apply (D i k a); assumption|]. apply IN in Ib; [|lia]. lia.
    + rewrite put_same in Ib. rewrite put_other in Ia by assumption. apply F in Ib. destruct Ib as [Ib|Ib]; [apply (D i j a); auto|]. apply IN in Ia; [|lia]. lia.
    + rewrite put_other in Ia, Ib by assumption. apply (D j k a); assumption.
Qed.

Lemma act_ok g h e ts a ts' : einv g h e ts -> can_act g ts a = true -> after ts a = Some ts' ->
  exists h' e', act_on h e a = Ok (h', e') /\ einv (next_guard g ts a) h' e' ts'.
Proof.
  intros Inv C A. pose proof Inv as (L1 & L2 & hom & H & D). destruct a as [capacity t|i ix|i|i j grow sel|i from capacity]; cbn [can_act after act_on next_guard] in *.
  - injection A as <-. apply andb_true_iff in C. destruct C as (C & C3). apply andb_true_iff in C. destruct C as (C1 & C2). apply Nat.leb_le in C2, C3.
    destruct (make_ok h t capacity (rows t) (even_lens _ C1)) as (h1 & c & h2 & vs & hs & E1 & E2 & Hc & K & N & F).
    { intros ->. cbn in C2. lia. } { assumption. }
    rewrite E1, E2. cbn [rbind]. eexists h2, _. split; [reflexivity|]. eapply einv_add; eauto.
  - destruct (nth_error ts i) as [t|] eqn:Nt; [|discriminate]. destruct (pick_all t ix) as [t'|] eqn:P; [|discriminate]. injection A as <-.
    destruct (einv_get _ _ _ _ _ _ Inv Nt) as (c & gk & Nc & Ng). rewrite Nc. destruct (H _ _ _ _ Nc Nt Ng) as (Hc & Hn).
    destruct (choose_ok _ _ _ _ _ _ _ Hc P) as (c' & E & Hc'). rewrite E. cbn [rbind]. eexists h, _. split; [reflexivity|].
    eapply einv_set; eauto. { eapply nth_lt; eassumption. } { apply keeps_refl. }
  - injection A as <-. apply Nat.ltb_lt in C. destruct (nth_ex ts i C) as (t & Nt). destruct (einv_get _ _ _ _ _ _ Inv Nt) as (c & gk & Nc & Ng). rewrite Nc.
    destruct (H _ _ _ _ Nc Nt Ng) as (Hc & Hn). destruct (write_out_ok _ _ _ _ _ Hc Hn) as (h' & c' & hs' & E & Hc' & K & N & F). rewrite E. cbn [rbind].
    eexists h', _. split; [reflexivity|]. rewrite <- (list_set_same _ _ _ Ng), <- (list_set_same _ _ _ Nt). eapply einv_set; eauto.
  - destruct (nth_error g i) as [[cp|]|] eqn:Ng; try discriminate. destruct (nth_error ts i) as [t|] eqn:Nt; [|discriminate]. destruct (nth_error ts j) as [u|] eqn:Nu; [|discriminate].
    destruct (match sel with Some ix => pick_all u ix | None => Some u end) as [fs|] eqn:Sel; [|discriminate]. injection A as <-.
    apply andb_true_iff in C. destruct C as (C & C4). apply andb_true_iff in C. destruct C as (C & C3). apply andb_true_iff in C. destruct C as (C1 & C2).
    apply negb_true_iff in C1, C3. apply Nat.eqb_neq in C1, C3. apply Nat.eqb_eq in C2.
    destruct (einv_get _ _ _ _ _ _ Inv Nt) as (c & gk & Nc & Ng'). rewrite Ng in Ng'. injection Ng' as <-. destruct (einv_get _ _ _ _ _ _ Inv Nu) as (s & gs & Ns & Ngs).
    rewrite Nc, Ns. destruct (H _ _ _ _ Nc Nt Ng) as (Hc & Hn). destruct (H _ _ _ _ Ns Nu Ngs) as (Hs & _).
    assert (Rt : rows t = count c) by (apply lens_rows; apply Hc). assert (Ru : rows u = count s) by (apply lens_rows; apply Hs). rewrite Rt, Ru in *.
    destruct (append_ok gs cp h (hom i) (hom j) c s t u grow sel fs Hc Hs Hn) as (h' & c' & hs' & E & Hc' & K & N & F).
    { intros a Ia. apply (D j i a); auto; eapply nth_lt; eassumption. } { assumption. } { assumption. } { assumption. }
    { apply orb_true_iff in C4. rewrite Nat.leb_le in C4. assumption. }
    rewrite E. cbn [rbind]. eexists h', _. split; [reflexivity|]. eapply einv_set; eauto. eapply nth_lt; eassumption.
  - destruct (nth_error ts i) as [t|] eqn:Nt; [|discriminate]. injection A as <-. apply andb_true_iff in C. rewrite !Nat.leb_le in C. destruct C as (C1 & C2).
    destruct (einv_get _ _ _ _ _ _ Inv Nt) as (c & gk & Nc & Ng). rewrite Nc. destruct (H _ _ _ _ Nc Nt Ng) as (Hc & Hn).
    assert (Rt : rows t = count c) by (apply lens_rows; apply Hc). rewrite Rt in *.
    destruct (copy_of_ok _ _ _ _ _ from capacity Hc C1 C2) as (h1 & x & h2 & c' & hs & E1 & E2 & Hc' & K & N & F). rewrite E1, E2. cbn [rbind].
    eexists h2, _. split; [reflexivity|]. eapply einv_add; eauto.
Qed.
Lemma acts_ok : forall l g h e ts ts', einv g h e ts -> history g ts l = Some ts' -> exists h' e' g', acts_on h e l = Ok (h', e') /\ einv g' h' e' ts'.
Proof.
  induction l as [|a l IH]; intros g h e ts ts' Inv H; cbn [history acts_on] in *.
  - injection H as <-. eauto.
  - destruct (can_act g ts a) eqn:C; [|discriminate]. destruct (after ts a) as [t1|] eqn:A; [|discriminate].
    destruct (act_ok _ _ _ _ _ _ Inv C A) as (h1 & e1 & E & Inv1). rewrite E. cbn [rbind]. eapply IH; eassumption.
Qed.
Lemma chunks_show l ts : history [] [] l = Some ts ->
  exists h e, acts_on {| mem := []; bufs := [] |} [] l = Ok (h, e) /\ length e = length ts /\
  forall k c t, nth_error e k = Some c -> nth_error ts k = Some t -> shows h c t.
Proof.
  intros H. destruct (acts_ok l [] {| mem := []; bufs := [] |} [] [] ts) as (h & e & g & E & (L1 & L2 & hom & Hc & _)).
  { split; [reflexivity|]. split; [reflexivity|]. exists (fun _ => []). split; [intros [|k] c t gk N; discriminate|]. intros j k a Lj. cbn in Lj. lia. }
  { assumption. }
  exists h, e. split; [assumption|]. split; [assumption|]. intros k c t Nc Nt. destruct (nth_ex g k) as (gk & Ng). { apply nth_lt in Nt. lia. }
  eapply chunk_shows. apply (Hc _ _ _ _ Nc Nt Ng).
Qed.

(** ** The rows of an INSERT *)
Lemma mcopy_loop_shape s ix soff toff : forall n i t, (exists m, mcopy_loop n i t s ix soff toff = Ok m) \/ mcopy_loop n i t s ix soff toff = Err UB.
Proof.
  induction n as [|n IH]; intros i t; cbn [mcopy_loop]; [eauto|].
  assert (G : (exists j, get_index ix (soff + i) = Ok j) \/ get_index ix (soff + i) = Err UB).
  { destruct ix as [l|]; cbn [get_index]; [destruct (nth_error l (soff + i))|]; eauto. }
  destruct G as [(j & ->)| ->]; [|auto]. cbn [rbind].
  assert (R : (exists b, row_ok s j = Ok b) \/ row_ok s j = Err UB). { unfold row_ok. destruct (arr s) as [l|]; [destruct (nth_error l j)|]; eauto. }
  destruct R as [(b & ->)| ->]; [|auto]. cbn [rbind].
  assert (M : (exists m, mset t (toff + i) b = Ok m) \/ mset t (toff + i) b = Err UB).
  { unfold mset. destruct (arr t) as [l|]; [destruct (toff + i <? length l)|destruct b; [|destruct (toff + i <? cnt t)]]; eauto. }
  destruct M as [(m & ->)| ->]; [|auto]. cbn [rbind]. apply IH.
Qed.
Lemma copy_data_over s a : forall n i h cs,
  cells_of h a = Some cs -> away s a -> i <= length cs -> length cs < i + n -> (forall k, i <= k < i + n -> exists c, rdc h s k = Ok c) ->
  copy_data n i h s None (Some (a, 0)) 0 0 = Err UB.
Proof.
  induction n as [|n IH]; intros i h cs C W Li L R; [lia|]. cbn [copy_data get_index Nat.add rbind]. destruct (R i) as (c & ->); [lia|]. cbn [rbind wrc]. rewrite C.
  cbn [Nat.add]. destruct (i <? length cs) eqn:E; [|reflexivity]. cbn [rbind]. apply Nat.ltb_lt in E. pose proof (cells_lt _ _ _ C) as La.
  apply IH with (cs := list_set cs i c).
  - rewrite cells_set, Nat.eqb_refl by assumption. reflexivity.
  - assumption.
  - rewrite length_list_set. lia.
  - rewrite length_list_set. lia.
  - intros k Hk. destruct (R k) as (d & Ed); [lia|]. exists d. rewrite rdc_away by assumption. assumption.
Qed.
Lemma new_first h k capacity : exists h1 v vs, new_cols h (S k) capacity = (h1, v :: vs) /\
  (exists o, v = Flat o /\ dat o = Some (length (mem h), 0)) /\ cells_of h1 (length (mem h)) = Some (repeat (Some 0%Z) capacity) /\ grows h h1.
Proof.
  cbn [new_cols]. unfold new_vec. destruct (alloc h (repeat (Some 0%Z) capacity)) as [[h1 a] b] eqn:E.
  destruct (cells_alloc _ _ _ _ _ E) as (Ha & Hb & C & N & G & Gb & L). rewrite Ha in *.
  destruct (new_cols_ok capacity k h1) as (h2 & vs & E2 & A & (Lk & K) & Lm). rewrite E2. eexists h2, _, vs. split; [reflexivity|]. split; [eexists; split; reflexivity|].
  split.
  - apply K; [lia|auto|assumption].
  - intros a' c Ca. apply K; [apply cells_lt in Ca; lia|auto|]. apply G. assumption.
Qed.
Lemma raw_over cp h hs c t : chunk_ok (Some cp) h hs c t -> VCAP < count c -> raw_data h c = Err UB.
Proof.
  intros (A & L & NE & _) Lc. cbn [colstate] in A. unfold raw_data, new_chunk. destruct c as [cs n cp']. cbn [cols count] in *.
  inversion A as [|v a l vs hs' t' Hv At]; subst; [congruence|].
  cbn [length]. destruct (new_first h (length vs) VCAP) as (h1 & w & ws & E & (o & -> & Do) & C & G). rewrite E. unfold chunk_copy, copy_cols. cbn [cols count combine on_cols cap].
  destruct Hv as (q & b & -> & (D & (ds & Cq & _) & _ & _ & R) & _). unfold copy_sel. cbn [copy]. rewrite Nat.sub_0_r. unfold copy_rows.
  assert (Ln : length l = n) by (apply L; left; reflexivity).
  replace (n =? 0) with false by (symmetry; apply Nat.eqb_neq; lia).
  assert (Ed : copy_data n 0 h1 (dat q) None (dat o) 0 0 = Err UB).
  { rewrite Do. eapply copy_data_over; [exact C| |lia| |].
    - rewrite D. cbn. apply cells_lt in Cq. lia.
    - rewrite repeat_length. lia.
    - intros k Hk. destruct (nth_ex l k) as (x & N); [lia|]. destruct (R _ _ N) as (_ & d & Rd & _). exists d. rewrite D in *. cbn [rdc] in *.
      destruct (cells_of h a) eqn:Ca; [|discriminate]. rewrite (G _ _ Ca). assumption. }
  assert (M : (exists m, mcopy n (msk o) (msk q) None 0 0 = Ok m) \/ mcopy n (msk o) (msk q) None 0 0 = Err UB).
  { unfold mcopy. destruct (arr (msk q)); [apply mcopy_loop_shape|]. destruct (arr (msk o)); [apply mcopy_loop_shape|eauto]. }
  destruct M as [(m & ->)| ->]; cbn [rbind]; [rewrite Ed|]; reflexivity.
Qed.
Lemma made t capacity : even t = true -> t <> [] -> rows t <= capacity ->
  exists h c hs, acts_on {| mem := []; bufs := [] |} [] [Make capacity t] = Ok (h, [c]) /\ chunk_ok (Some capacity) h hs c t.
Proof.
  intros Ev NE Lc. destruct (make_ok {| mem := []; bufs := [] |} t capacity (rows t) (even_lens _ Ev) NE Lc) as (h1 & c & h2 & vs & hs & E1 & E2 & Hc & _).
  cbn [acts_on act_on]. rewrite E1, E2. cbn [rbind app]. eexists h2, _, hs. split; [reflexivity|exact Hc].
Qed.
Lemma raw_small t capacity : even t = true -> t <> [] -> rows t <= capacity -> rows t <= VCAP ->
  exists h c h' c', acts_on {| mem := []; bufs := [] |} [] [Make capacity t] = Ok (h, [c]) /\ raw_data h c = Ok (h', c') /\ shows h' c' t.
Proof.
  intros Ev NE Lc Lv. destruct (made t capacity Ev NE Lc) as (h & c & hs & E & Hc). assert (Rt : rows t = count c) by (apply lens_rows; apply Hc).
  destruct (copy_of_ok _ _ _ _ _ 0 VCAP Hc) as (h1 & x & h2 & c' & hs' & E1 & E2 & Hc' & _); [lia|lia|]. exists h, c, h2, c'. split; [assumption|].
  unfold raw_data. rewrite E1, E2. split; [reflexivity|]. rewrite skip_all in Hc'. eapply chunk_shows; eassumption.
Qed.
Lemma raw_large t capacity : even t = true -> t <> [] -> rows t <= capacity -> VCAP < rows t ->
  exists h c, acts_on {| mem := []; bufs := [] |} [] [Make capacity t] = Ok (h, [c]) /\ shows h c t /\ raw_data h c = Err UB.
Proof.
  intros Ev NE Lc Lv. destruct (made t capacity Ev NE Lc) as (h & c & hs & E & Hc). assert (Rt : rows t = count c) by (apply lens_rows; apply Hc).
  exists h, c. split; [assumption|]. split; [eapply chunk_shows; eassumption|]. eapply raw_over; [eassumption|lia].
Qed.
