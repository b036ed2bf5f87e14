(** * Proofs about the B+-tree: the ids of the leaf files *)
From Coq Require Import List ZArith Lia Arith Bool Permutation.
From Verif Require Import Bytes Outcome BtModel BtSpec BtProofs.
Import ListNotations.

Notation ids ls := (map lid ls).

(** ids in use and ids that have become free are together an initial segment, each once *)
Definition Ids (t : bt) : Prop :=
  lcount t = length (leaves t) /\
  Permutation (ids (leaves t) ++ missed t) (seq 0 (lcount t + length (missed t))).

Lemma ids_set p l e (ls : list leaf) : nth_error ls p = Some l -> ids (set_nth p (mkleaf (lid l) e) ls) = ids ls.
Proof.
  intro H. apply split_at in H as (a & b & -> & <-). rewrite set_mid, !map_app. reflexivity.
Qed.

Lemma len_ids (a b : list leaf) : ids a = ids b -> length a = length b.
Proof. intro H. apply (f_equal (@length _)) in H. now rewrite !map_length in H. Qed.

Lemma nth_ids p (l : leaf) a b : ids a = ids b -> nth_error a p = Some l -> exists l', nth_error b p = Some l' /\ lid l' = lid l.
Proof.
  intros H Hl. apply (map_nth_error lid) in Hl. rewrite H in Hl. rewrite nth_error_map in Hl.
  destruct (nth_error b p); [ | discriminate]. injection Hl as Hl. eauto.
Qed.

(** a step that leaves the ids alone *)
Lemma Ids_same t t' : Ids t -> ids (leaves t') = ids (leaves t) -> lcount t' = lcount t -> missed t' = missed t -> Ids t'.
Proof.
  intros (H1 & H2) E1 E2 E3. split.
  - rewrite E2, H1. symmetry. now apply len_ids.
  - rewrite E1, E2, E3. exact H2.
Qed.

(** a new leaf *)
Lemma Ids_new t t' i ms a b : Ids t -> unique_id t = (i, ms) ->
  ids (leaves t) = a ++ b -> ids (leaves t') = a ++ i :: b -> lcount t' = S (lcount t) -> missed t' = ms -> Ids t'.
Proof.
  intros (H1 & H2) Eu E1 E2 E3 E4. split.
  - rewrite E3, H1. apply (f_equal (@length _)) in E1. apply (f_equal (@length _)) in E2.
    rewrite map_length, app_length in *. cbn [length] in E2. lia.
  - rewrite E2, E3, E4. rewrite E1 in H2. rewrite <- app_assoc in *. cbn [app].
    rewrite <- (Permutation_middle a (b ++ ms) i). unfold unique_id in Eu.
    destruct (missed t) as [ | j r]; injection Eu as <- <-.
    + cbn [length] in *. rewrite Nat.add_0_r in *. rewrite seq_S.
      rewrite Nat.add_0_l. rewrite <- Permutation_cons_append. rewrite app_nil_r in *. now apply perm_skip.
    + cbn [length] in H2. replace (S (lcount t) + length r) with (lcount t + S (length r)) by lia.
      rewrite <- H2. rewrite !app_assoc. apply Permutation_middle.
Qed.

(** a leaf goes away *)
Lemma Ids_drop t t' i a b : Ids t -> ids (leaves t) = a ++ i :: b -> ids (leaves t') = a ++ b ->
  lcount t' = lcount t - 1 -> missed t' = missed t ++ [i] -> Ids t'.
Proof.
  intros (H1 & H2) E1 E2 E3 E4.
  assert (L : lcount t = S (length (a ++ b))).
  { rewrite H1. apply (f_equal (@length _)) in E1. rewrite map_length, app_length in E1. cbn [length] in E1. rewrite app_length. lia. }
  split.
  - apply (f_equal (@length _)) in E2. rewrite map_length in E2. lia.
  - rewrite E2, E3, E4, app_length. cbn [length].
    replace (lcount t - 1 + (length (missed t) + 1)) with (lcount t + length (missed t)) by lia.
    rewrite <- H2, E1. rewrite <- (app_assoc a (i :: b)). cbn [app].
    rewrite <- (Permutation_middle a). rewrite !app_assoc. rewrite <- Permutation_cons_append. reflexivity.
Qed.

Lemma append_ids M t k x r t' : Ids t -> append M t k x = Ok (r, t') -> Ids t'.
Proof.
  intros Hi. unfold append.
  destruct (leaves t) as [ | l0 ls] eqn:El.
  { destruct (unique_id t) as [i ms] eqn:Eu. intro E. injection E as <- <-.
    apply (Ids_new t _ i ms [] [] Hi Eu); try reflexivity. now rewrite El. }
  assert (Gen : match nth_error (l0 :: ls) (last (path (l0 :: ls) (levels t) 0 (Fin k)) 0) with
      | None => Err UB
      | Some l =>
          if is_stuck t l then Err Diverge else
          let u := uniq (ents l) in
          let cs := counts (levels t) (path (l0 :: ls) (levels t) 0 (Fin k)) in
          let '(record, n) := walk (fun c => c <? M) (fun c => c =? M) cs u (hd 0 cs =? M) 0 in
          if u <? M then
            let '(r, e) := leaf_append k x (ents l) in
            Ok (r, mkbt (set_nth (last (path (l0 :: ls) (levels t) 0 (Fin k)) 0) (mkleaf (lid l) e) (l0 :: ls)) (levels t)
                        (if r then icount t + 1 else icount t)%Z (lcount t) (missed t) (stuck t))
          else
            let '(i, ms) := unique_id t in
            let '(lo, hi) := leaf_split (ents l) in
            let right := negb (ext_ltb (Fin k) (lmin hi)) in
            let '(r, e) := leaf_append k x (if right then hi else lo) in
            let ls' := ins_nth (S (last (path (l0 :: ls) (levels t) 0 (Fin k)) 0)) (mkleaf i (if right then e else hi))
                               (set_nth (last (path (l0 :: ls) (levels t) 0 (Fin k)) 0) (mkleaf (lid l) (if right then lo else e)) (l0 :: ls)) in
            do lv' <- push_up M ls' [] (rev (levels t)) (tl (rev (path (l0 :: ls) (levels t) 0 (Fin k)))) n
                        (S (last (path (l0 :: ls) (levels t) 0 (Fin k)) 0));
            Ok (r, mkbt ls' lv' (if r then icount t + 1 else icount t)%Z (S (lcount t)) ms (stuck t))
      end = Ok (r, t') -> Ids t').
  { set (p := last (path (l0 :: ls) (levels t) 0 (Fin k)) 0).
    destruct (nth_error (l0 :: ls) p) as [l | ] eqn:Ep; [ | discriminate].
    destruct (is_stuck t l); [discriminate | ]. cbn zeta.
    destruct (walk _ _ _ _ _ _) as [record n].
    destruct (_ <? M).
    - destruct (leaf_append _ _ _) as [r1 e]. intro E. injection E as <- <-.
      apply (Ids_same t); auto. cbn [leaves]. rewrite (ids_set p l e _ Ep). now rewrite El.
    - destruct (unique_id t) as [i ms] eqn:Eu. destruct (leaf_split _) as [lo hi].
      set (right := negb _). destruct (leaf_append _ _ _) as [r1 e].
      destruct (push_up _ _ _ _ _ _ _) as [lv' | ]; cbn [rbind]; [ | discriminate].
      intro E. injection E as <- <-. apply split_at in Ep as (a & b & Ep & Hp). clearbody p. rewrite Ep, <- Hp.
      rewrite set_mid, ins_mid.
      apply (Ids_new t _ i ms (ids (a ++ [l])) (ids b) Hi Eu); try reflexivity.
      + rewrite El, Ep, !map_app. cbn [map]. now rewrite <- app_assoc.
      + cbn [leaves]. rewrite !map_app. cbn [map lid]. now rewrite <- app_assoc. }
  destruct ls as [ | l1 ls]; [destruct (levels t) as [ | g lv]; [ | exact Gen] | exact Gen]. clear Gen.
  destruct (_ <? M).
  - destruct (leaf_append _ _ _) as [r1 e]. intro E. injection E as <- <-.
    apply (Ids_same t); auto. now rewrite El.
  - destruct (unique_id t) as [i ms] eqn:Eu. destruct (leaf_split _) as [lo hi].
    set (right := ext_ltb _ _). destruct (leaf_append _ _ _) as [r1 e].
    intro E. injection E as <- <-.
    apply (Ids_new t _ i ms [lid l0] [] Hi Eu); try reflexivity. now rewrite El.
Qed.

Ltac tail rm lc t L EL q Hi El FinH Bal :=
    cbn zeta; rewrite <- EL;
    let p := fresh "p" in let l := fresh "l" in let o := fresh "o" in let o' := fresh "o" in
    let E := fresh "E" in let Ep := fresh "Ep" in let Lft := fresh "Lft" in
    set (p := q);
    destruct (nth_error L p) as [l | ] eqn:Ep; [ | discriminate];
    destruct (is_stuck t l); [discriminate | ]; cbn zeta;
    destruct (walk _ _ _ _ _ _) as [? ?];
    destruct (negb (has_key _ _)); [intro E; injection E as <- <-; apply (Ids_same t); auto; now rewrite El | ];
    destruct (rm (ents l)) as [r1 e];
    destruct (mincap _ <? _);
    [intro E; injection E as <- <-; apply (Ids_same t); auto; cbn [leaves]; rewrite (ids_set p l e _ Ep); now rewrite El | ];
    destruct (negb r1); [intro E; injection E as <- <-; apply (Ids_same t); auto; now rewrite El | ];
    assert (Lft : forall o', (if p =? 0 then None else nth_error L (p - 1)) = Some o' -> nth_error L (p - 1) = Some o')
      by (intros ?; destruct (p =? 0); [discriminate | tauto]);
    (destruct (nth_error L (S p)) as [o | ] eqn:Eo;
     [destruct (uniq (ents o) <=? _);
       [destruct (is_stuck t o); [discriminate | ]; apply FinH; [exact Ep | now apply ids_set] | ] | ];
     (destruct (if p =? 0 then None else nth_error L (p - 1)) as [o' | ] eqn:Eo'; [specialize (Lft o' eq_refl) | clear Lft]));
    try discriminate;
    try (destruct (is_stuck t o'); [discriminate | ]);
    try (destruct (lc (ents o') <=? _);
      [try (destruct (is_stuck t o'); [discriminate | ]); apply FinH; [exact Ep | now apply ids_set] | ]);
    try (destruct (is_stuck t o); [discriminate | ]);
    try (destruct (is_stuck t o'); [discriminate | ]);
    destruct (leaf_balance _ _) as [e1 o1]; now apply Bal.

Lemma remove_gen_ids M rm delta left_count t k r t' :
  Ids t -> remove_gen M rm delta left_count t k = Ok (r, t') -> Ids t'.
Proof.
  intros Hi. unfold remove_gen.
  destruct (leaves t) as [ | l0 ls] eqn:El.
  { intro E. injection E as <- <-. exact Hi. }
  remember (l0 :: ls) as L eqn:EL.
  assert (FinH : forall p l r1 ls' ic X, nth_error L p = Some l -> ids ls' = ids L ->
      (do lv' <- X; Ok (r1, mkbt (del_nth p ls') lv' ic (lcount t - 1) (missed t ++ [lid l]) (stuck t))) = Ok (r, t') -> Ids t').
  { intros p l r1 ls' ic X Ep E'. destruct X as [lv' | ]; cbn [rbind]; [ | discriminate].
    intro E. injection E as <- <-.
    destruct (nth_ids p l _ _ (eq_sym E') Ep) as (l' & Ep' & El').
    apply split_at in Ep' as (a & b & Ep' & Hp). rewrite Ep', <- Hp, del_mid.
    apply (Ids_drop t _ (lid l) (ids a) (ids b) Hi); try reflexivity.
    - rewrite El, <- E', Ep', map_app. cbn [map]. now rewrite El'.
    - cbn [leaves]. now rewrite map_app. }
  assert (Bal : forall p l q o r1 x y lv ic, nth_error L p = Some l -> nth_error L q = Some o ->
      Ok (r1, mkbt (set_nth q (mkleaf (lid o) y) (set_nth p (mkleaf (lid l) x) L)) lv ic (lcount t) (missed t) (stuck t))
        = Ok (r, t') -> Ids t').
  { intros p l q o r1 x y lv ic Ep Eq E. injection E as <- <-. apply (Ids_same t); auto. cbn [leaves].
    pose proof (ids_set p l x _ Ep) as E1.
    destruct (nth_ids q o _ _ (eq_sym E1) Eq) as (o' & Eo & Eo'). rewrite <- Eo', (ids_set q o' y _ Eo), E1. now rewrite El. }
  destruct ls as [ | l1 ls]; [destruct (levels t) as [ | g lv];
    [ | tail rm left_count t L EL (last (path L (g :: lv) 0 (Fin k)) 0) Hi El FinH Bal] | tail rm left_count t L EL (last (path L (levels t) 0 (Fin k)) 0) Hi El FinH Bal].
  destruct (rm (ents l0)) as [r1 [ | y e]]; intro E; injection E as <- <-.
  - apply (Ids_drop t _ (lid l0) [] [] Hi); try reflexivity. now rewrite El, EL.
  - apply (Ids_same t); auto. now rewrite El, EL.
Qed.

Lemma step_ids M t o r t' : Ids t -> step M t o = Ok (r, t') -> Ids t'.
Proof.
  intros Hi. destruct o; cbn [step].
  - destruct (append M t k x) as [[b t1] | ] eqn:E; cbn [rbind]; [ | discriminate].
    intro H. injection H as <- <-. now apply (append_ids M t k x b).
  - destruct (remove M t k x) as [[b t1] | ] eqn:E; cbn [rbind]; [ | discriminate].
    intro H. injection H as <- <-. now apply remove_gen_ids in E.
  - destruct (remove_index M t k) as [[b t1] | ] eqn:E; cbn [rbind]; [ | discriminate].
    intro H. injection H as <- <-. now apply remove_gen_ids in E.
  - destruct (get_items t k); cbn [rbind]; [ | discriminate]. intro H. injection H as <- <-. exact Hi.
  - intro H. injection H as <- <-. exact Hi.
  - destruct (full_scan t); cbn [rbind]; [ | discriminate]. intro H. injection H as <- <-. exact Hi.
  - destruct (scan_ascending _ _ _ _ _); cbn [rbind]; [ | discriminate]. intro H. injection H as <- <-. exact Hi.
  - destruct (scan_decending _ _ _ _ _); cbn [rbind]; [ | discriminate]. intro H. injection H as <- <-. exact Hi.
Qed.

Lemma Ids0 : Ids bt0.
Proof. split; cbn; constructor. Qed.

Lemma calls_ids M : forall cs t t', Ids t -> no_gap M t cs -> calls M t cs = Ok t' -> Ids t'.
Proof.
  induction cs as [ | c cs IH]; intros t t' Hi Hg; cbn [calls].
  - intro E. injection E as <-. exact Hi.
  - cbn [no_gap] in Hg. destruct Hg as (Hm & Hg).
    destruct (calls_step M t c) as [t1 | ] eqn:E; cbn [rbind]; [ | discriminate].
    apply IH; [ | exact Hg]. clear IH Hg. destruct c as [o | ]; cbn [calls_step] in E.
    + destruct (step M t o) as [[r t2] | ] eqn:Es; cbn [rbind] in E; [ | discriminate].
      injection E as <-. now apply step_ids in Es.
    + specialize (Hm eq_refl). destruct Hi as (H1 & H2). rewrite Hm in *.
      destruct (leaves t) as [ | l ls] eqn:El.
      * injection E as <-. exact Ids0.
      * injection E as <-. split; cbn [load leaves lcount missed length]; [reflexivity | ].
        rewrite H1 in H2. exact H2.
Qed.

Lemma Ids_nodup t : Ids t -> NoDup (file_ids t).
Proof.
  intros (_ & H).
  assert (N : NoDup (ids (leaves t) ++ missed t)).
  { apply (Permutation_NoDup (Permutation_sym H)), seq_NoDup. }
  unfold file_ids. clear H. induction (ids (leaves t)) as [ | i l IH]; [constructor | ].
  cbn [app] in N. inversion N as [ | ? ? N1 N2]; subst. constructor; [ | now apply IH].
  intro Hin. apply N1, in_or_app. now left.
Qed.

Lemma calls_nodup M cs t : no_gap M bt0 cs -> calls M bt0 cs = Ok t -> NoDup (file_ids t).
Proof. intros H E. apply Ids_nodup. exact (calls_ids M cs bt0 t Ids0 H E). Qed.
