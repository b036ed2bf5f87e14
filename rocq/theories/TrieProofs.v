(** Facts about the versioned trie, for any key element type with a strict total order. *)
From Verif Require Import Bytes TrieModel.

Section TrieFacts.
  Context {E V : Type}.
  Variable ltb : E -> E -> bool.
  Variable live : V -> bool.
  Hypothesis irr : forall a, ltb a a = false.
  Hypothesis trans : forall a b c, ltb a b = true -> ltb b c = true -> ltb a c = true.
  Hypothesis tot : forall a b, ltb a b = false -> ltb b a = false -> a = b.

  Notation node := (node E V).
  Notation trie := (trie E V).
  Notation child_at := (child_at ltb).
  Notation put_child := (put_child ltb).
  Notation add_child := (add_child ltb).
  Notation rem_child := (rem_child ltb).
  Notation walk := (walk ltb).

  Fixpoint sorted (cs : list (E * node)) : Prop :=
    match cs with
    | [] => True
    | (k, _) :: r => (forall k' c', In (k', c') r -> ltb k k' = true) /\ sorted r
    end.

  Lemma eqE_dec (a b : E) : a = b \/ a <> b.
  Proof.
    destruct (ltb a b) eqn:H1.
    - right. intros ->. rewrite irr in H1. discriminate.
    - destruct (ltb b a) eqn:H2.
      + right. intros ->. rewrite irr in H2. discriminate.
      + left. apply tot; assumption.
  Qed.

  Lemma eql_dec (a b : list E) : a = b \/ a <> b.
  Proof.
    revert b. induction a as [|x a IH]; intros [|y b]; try (left; reflexivity); try (right; discriminate).
    destruct (eqE_dec x y) as [->|N]; [|right; congruence].
    destruct (IH b) as [->|N]; [left; reflexivity|right; congruence].
  Qed.

  Lemma asym a b : ltb a b = true -> ltb b a = false.
  Proof.
    intros H. destruct (ltb b a) eqn:H2; [|reflexivity].
    pose proof (trans _ _ _ H H2) as H3. rewrite irr in H3. discriminate.
  Qed.

  (** A missing key below the head of a sorted list. *)
  Lemma child_at_below (cs : list (E * node)) e : (forall k c, In (k, c) cs -> ltb e k = true) -> child_at cs e = None.
  Proof.
    destruct cs as [|[k c] r]; [reflexivity|]. intros H. cbn.
    pose proof (H k c (or_introl eq_refl)) as H1. rewrite (asym _ _ H1), H1. reflexivity.
  Qed.

  Lemma child_at_In (cs : list (E * node)) e c : child_at cs e = Some c -> In (e, c) cs.
  Proof.
    induction cs as [|[k x] r IH]; [discriminate|]. cbn.
    destruct (ltb k e) eqn:H1; [right; auto|]. destruct (ltb e k) eqn:H2; [discriminate|].
    intros [= ->]. left. rewrite (tot _ _ H1 H2). reflexivity.
  Qed.

  Lemma In_child_at cs e c : sorted cs -> In (e, c) cs -> child_at cs e = Some c.
  Proof.
    induction cs as [|[k x] r IH]; [intros _ []|]. cbn. intros [Hk Hs] [ [= -> ->] | HI ].
    - rewrite irr. reflexivity.
    - rewrite (Hk _ _ HI). auto.
  Qed.

  Lemma put_keys (cs : list (E * node)) e c : map fst (put_child cs e c) = map fst cs.
  Proof.
    induction cs as [|[k x] r IH]; [reflexivity|]. cbn. destruct (ltb k e); cbn; [rewrite IH|]; reflexivity.
  Qed.

  Lemma In_put (cs : list (E * node)) e c c0 k x : child_at cs e = Some c0 ->
    In (k, x) (put_child cs e c) -> (k = e /\ x = c) \/ In (k, x) cs.
  Proof.
    induction cs as [|[k0 x0] r IH]; [discriminate|]. cbn.
    destruct (ltb k0 e) eqn:H1.
    - intros H [H2|H2]; [right; left; exact H2|]. destruct (IH H H2) as [H3|H3]; [left; exact H3|right; right; exact H3].
    - destruct (ltb e k0) eqn:H2; [discriminate|]. intros _ [ [= <- <-] | H3 ].
      + left. split; [apply tot; assumption|reflexivity].
      + right. right. exact H3.
  Qed.

  Lemma sorted_put cs e c c0 : child_at cs e = Some c0 -> sorted cs -> sorted (put_child cs e c).
  Proof.
    induction cs as [|[k x] r IH]; [discriminate|]. cbn.
    destruct (ltb k e) eqn:H1.
    - intros H [Hk Hs]. split; [|apply IH; assumption]. intros k' c' HI.
      destruct (In_put _ _ _ _ _ _ H HI) as [ [-> _] | H2 ]; [exact H1|apply (Hk _ _ H2)].
    - intros _ [Hk Hs]. split; assumption.
  Qed.

  Lemma child_at_put cs e c c0 e' : child_at cs e = Some c0 -> sorted cs ->
    (e' = e -> child_at (put_child cs e c) e' = Some c) /\
    (e' <> e -> child_at (put_child cs e c) e' = child_at cs e').
  Proof.
    induction cs as [|[k x] r IH]; [discriminate|]. cbn.
    destruct (ltb k e) eqn:H1.
    - intros H [Hk Hs]. destruct (IH H Hs) as [IH1 IH2]. split; intros He.
      + subst e'. cbn. rewrite H1. apply IH1. reflexivity.
      + cbn. destruct (ltb k e'); [apply IH2; exact He|reflexivity].
    - destruct (ltb e k) eqn:H2; [discriminate|]. intros _ [Hk Hs]. pose proof (tot _ _ H1 H2) as ->.
      split; intros He.
      + subst e'. cbn. rewrite irr. reflexivity.
      + cbn. destruct (ltb e e') eqn:H3; [reflexivity|]. destruct (ltb e' e) eqn:H4; [reflexivity|].
        exfalso. apply He. apply tot; assumption.
  Qed.

  Lemma In_add (cs : list (E * node)) e c k x : In (k, x) (add_child cs e c) <-> (k = e /\ x = c) \/ In (k, x) cs.
  Proof.
    induction cs as [|[k0 x0] r IH]; cbn.
    - split; [intros [ [= -> ->] | [] ]; auto|]. intros [ [-> ->] | [] ]. left. reflexivity.
    - destruct (ltb k0 e); cbn; rewrite ?IH.
      + tauto.
      + split; [intros [ [= -> ->] | H ]; tauto|]. intros [ [-> ->] | H ]; [left; reflexivity|right; exact H].
  Qed.

  Lemma sorted_add cs e c : child_at cs e = None -> sorted cs -> sorted (add_child cs e c).
  Proof.
    induction cs as [|[k x] r IH]; cbn; [intros; split; [intros ? ? []|exact I]|].
    destruct (ltb k e) eqn:H1.
    - intros H [Hk Hs]. split; [|apply IH; assumption]. intros k' c' HI. apply In_add in HI.
      destruct HI as [ [-> _] | HI ]; [exact H1|apply (Hk _ _ HI)].
    - destruct (ltb e k) eqn:H2; [|discriminate]. intros _ [Hk Hs]. split; [|split; assumption].
      intros k' c' [ [= <- <-] | HI ]; [exact H2|]. apply (trans _ k); [exact H2|apply (Hk _ _ HI)].
  Qed.

  Lemma child_at_none cs e c : sorted cs -> child_at cs e = None -> ~ In (e, c) cs.
  Proof. intros Hs H HI. rewrite (In_child_at _ _ _ Hs HI) in H. discriminate. Qed.

  Lemma option_ext (a b : option node) : (forall c, a = Some c <-> b = Some c) -> a = b.
  Proof.
    intros H. destruct a as [a|].
    - symmetry. apply H. reflexivity.
    - destruct b as [b|]; [|reflexivity]. apply H. reflexivity.
  Qed.

  Lemma child_at_add cs e c e' : child_at cs e = None -> sorted cs ->
    (e' = e -> child_at (add_child cs e c) e' = Some c) /\
    (e' <> e -> child_at (add_child cs e c) e' = child_at cs e').
  Proof.
    intros H Hs. pose proof (sorted_add _ _ c H Hs) as Hs'. split; intros He.
    - subst e'. apply In_child_at; [exact Hs'|]. apply In_add. auto.
    - apply option_ext. intros x. split; intros Hx.
      + apply child_at_In, In_add in Hx. destruct Hx as [ [Hx _] | Hx ]; [contradiction|].
        apply In_child_at; assumption.
      + apply child_at_In in Hx. apply In_child_at; [exact Hs'|]. apply In_add. auto.
  Qed.

  Lemma In_rem cs e c k x : sorted cs -> child_at cs e = Some c ->
    (In (k, x) (rem_child cs e) <-> In (k, x) cs /\ k <> e).
  Proof.
    induction cs as [|[k0 x0] r IH]; [discriminate|]. cbn.
    destruct (ltb k0 e) eqn:H1.
    - intros [Hk Hs] H. cbn. rewrite (IH Hs H). split.
      + intros [ [= <- <-] | [H2 H3] ]; [|tauto]. split; [left; reflexivity|]. intros ->.
        rewrite irr in H1. discriminate.
      + tauto.
    - destruct (ltb e k0) eqn:H2; [discriminate|]. intros [Hk Hs] _. pose proof (tot _ _ H1 H2) as ->.
      split.
      + intros HI. split; [right; exact HI|]. intros ->. pose proof (Hk _ _ HI) as H3. rewrite irr in H3. discriminate.
      + intros [ [ [= <- _] | HI ] Hn ]; [contradiction|exact HI].
  Qed.

  Lemma sorted_rem cs e c : sorted cs -> child_at cs e = Some c -> sorted (rem_child cs e).
  Proof.
    induction cs as [|[k0 x0] r IH]; [discriminate|]. cbn.
    destruct (ltb k0 e) eqn:H1.
    - intros [Hk Hs] H. split; [|apply (IH Hs H)]. intros k' c' HI. apply (In_rem _ _ _ _ _ Hs H) in HI.
      apply (Hk k' c'), HI.
    - intros [Hk Hs] _. exact Hs.
  Qed.

  Lemma child_at_rem cs e c e' : sorted cs -> child_at cs e = Some c ->
    (e' = e -> child_at (rem_child cs e) e' = None) /\
    (e' <> e -> child_at (rem_child cs e) e' = child_at cs e').
  Proof.
    intros Hs H. pose proof (sorted_rem _ _ _ Hs H) as Hs'. split; intros He.
    - subst e'. destruct (child_at (rem_child cs e) e) as [x|] eqn:Hx; [|reflexivity].
      apply child_at_In, (In_rem _ _ _ _ _ Hs H) in Hx. destruct Hx as [_ Hx]. contradiction.
    - apply option_ext. intros x. split; intros Hx.
      + apply child_at_In, (In_rem _ _ _ _ _ Hs H) in Hx. apply In_child_at; tauto.
      + apply child_at_In in Hx. apply In_child_at; [exact Hs'|]. apply (In_rem _ _ _ _ _ Hs H). auto.
  Qed.

  (** Children in order, and no childless node without versions below the root. *)
  Definition full (n : node) : Prop := n_cs n = [] -> n_vs n <> [].
  Inductive wf : node -> Prop :=
  | WF vs cs : sorted cs -> (forall e c, In (e, c) cs -> wf c /\ full c) -> wf (Node vs cs).

  Lemma wf_sorted n : wf n -> sorted (n_cs n).
  Proof. intros []. assumption. Qed.
  Lemma wf_child n e c : wf n -> child_at (n_cs n) e = Some c -> wf c /\ full c.
  Proof. intros [vs cs Hs Hc] H. apply (Hc e). apply child_at_In. exact H. Qed.

  (** The versions at a key. *)
  Definition vers (n : node) (p : list E) : list (N * V) :=
    match walk n p with Some m => n_vs m | None => [] end.

  Lemma vers_cons n e p :
    vers n (e :: p) = match child_at (n_cs n) e with Some c => vers c p | None => [] end.
  Proof. unfold vers. cbn. destruct (child_at (n_cs n) e); reflexivity. Qed.

  Lemma vers_nil n : vers n [] = n_vs n.
  Proof. reflexivity. Qed.

  Lemma vers_chain p ver (v : V) q : vers (chain p ver v) q = [] \/ q = p /\ vers (chain p ver v) q = [(ver, v)].
  Proof.
    revert q. induction p as [|e p IH]; intros q.
    - destruct q; [right; split; reflexivity|left; reflexivity].
    - destruct q as [|e' q]; [left; reflexivity|]. rewrite vers_cons. cbn.
      destruct (ltb e e') eqn:H1; [left; reflexivity|]. destruct (ltb e' e) eqn:H2; [left; reflexivity|].
      rewrite (tot _ _ H1 H2). destruct (IH q) as [H|[-> H]]; [left; exact H|right; split; [reflexivity|exact H] ].
  Qed.

  Lemma vers_chain_eq p ver (v : V) : vers (chain p ver v) p = [(ver, v)].
  Proof.
    induction p as [|e p IH]; [reflexivity|]. rewrite vers_cons. cbn. rewrite irr. exact IH.
  Qed.

  Lemma vers_ins n p ver v q : wf n ->
    (q = p -> vers (ins ltb n p ver v) q = vers n p ++ [(ver, v)]) /\
    (q <> p -> vers (ins ltb n p ver v) q = vers n q).
  Proof.
    revert n q. induction p as [|e p IH]; intros n q Hw.
    - split; [intros ->; reflexivity|]. intros Hq. destruct q as [|e' q]; [contradiction|]. reflexivity.
    - cbn [ins]. destruct (child_at (n_cs n) e) as [c|] eqn:Hc.
      + destruct (wf_child _ _ _ Hw Hc) as [Hwc _].
        split; intros Hq.
        * subst q. rewrite !vers_cons. cbn [n_cs].
          destruct (child_at_put _ _ (ins ltb c p ver v) _ e Hc (wf_sorted _ Hw)) as [H1 _].
          rewrite (H1 eq_refl), Hc. apply (IH c p Hwc). reflexivity.
        * destruct q as [|e' q]; [reflexivity|]. rewrite !vers_cons. cbn [n_cs].
          destruct (child_at_put _ _ (ins ltb c p ver v) _ e' Hc (wf_sorted _ Hw)) as [H1 H2].
          destruct (eqE_dec e' e) as [->|Hn].
          -- rewrite (H1 eq_refl), Hc. apply (IH c q Hwc). congruence.
          -- rewrite (H2 Hn). reflexivity.
      + split; intros Hq.
        * subst q. rewrite !vers_cons. cbn [n_cs].
          destruct (child_at_add _ _ (chain p ver v) e Hc (wf_sorted _ Hw)) as [H1 _].
          rewrite (H1 eq_refl), Hc. apply vers_chain_eq.
        * destruct q as [|e' q]; [reflexivity|]. rewrite !vers_cons. cbn [n_cs].
          destruct (child_at_add _ _ (chain p ver v) e' Hc (wf_sorted _ Hw)) as [H1 H2].
          destruct (eqE_dec e' e) as [->|Hn].
          -- rewrite (H1 eq_refl), Hc. destruct (vers_chain p ver v q) as [H|[-> _]]; [exact H|congruence].
          -- rewrite (H2 Hn). reflexivity.
  Qed.

  Lemma wf_chain p ver (v : V) : wf (chain p ver v) /\ full (chain p ver v).
  Proof.
    induction p as [|e p [IH1 IH2]]; cbn.
    - split; [constructor; [exact I|intros ? ? []]|]. intros _. discriminate.
    - split.
      + constructor; [split; [intros ? ? []|exact I]|]. intros e' c' [ [= <- <-] | [] ]. split; assumption.
      + unfold full. cbn. discriminate.
  Qed.

  Lemma full_ins n p ver v : full n \/ n = Node [] [] -> full (ins ltb n p ver v).
  Proof.
    intros Hn. destruct p as [|e p]; cbn.
    - unfold full. cbn. intros _. destruct (n_vs n); discriminate.
    - destruct (child_at (n_cs n) e) as [c|] eqn:Hc; unfold full; cbn; intros H.
      + apply (f_equal (map fst)) in H. rewrite put_keys in H. destruct (n_cs n); [discriminate|discriminate].
      + destruct (n_cs n) as [|[k x] r]; cbn in H; [discriminate|]. destruct (ltb k e); discriminate.
  Qed.

  Lemma wf_ins n p ver v : wf n -> wf (ins ltb n p ver v).
  Proof.
    revert n. induction p as [|e p IH]; intros n Hw.
    - destruct Hw as [vs cs Hs Hc]. cbn. constructor; assumption.
    - cbn [ins]. destruct (child_at (n_cs n) e) as [c|] eqn:Hc.
      + destruct (wf_child _ _ _ Hw Hc) as [Hwc Hfc]. constructor.
        * eapply sorted_put; [exact Hc|apply wf_sorted, Hw].
        * intros e' c' HI. destruct (In_put _ _ _ _ _ _ Hc HI) as [ [-> ->] | HI' ].
          -- split; [apply IH, Hwc|apply full_ins; left; exact Hfc].
          -- destruct Hw as [vs cs Hs Hcs]. apply (Hcs _ _ HI').
      + constructor.
        * apply sorted_add; [exact Hc|apply wf_sorted, Hw].
        * intros e' c' HI. apply In_add in HI. destruct HI as [ [-> ->] | HI ].
          -- apply wf_chain.
          -- destruct Hw as [vs cs Hs Hcs]. apply (Hcs _ _ HI).
  Qed.

  Lemma is_nil_spec {A} (l : list A) : is_nil l = true <-> l = [].
  Proof. destruct l; cbn; split; intros H; congruence. Qed.
  Lemma is_nil_false {A} (l : list A) : is_nil l = false <-> l <> [].
  Proof. destruct l; cbn; split; intros H; congruence. Qed.

  (** What [del] leaves at the key itself. *)
  Definition rest_of (n : node) (p : list E) : list (N * V) :=
    match walk n p with
    | None => []
    | Some m =>
        let vs := removelast (n_vs m) in
        if negb (is_nil (n_cs m)) then vs
        else if has_alive live vs then filter (fun v => live (snd v)) vs else []
    end.

  Definition overs (o : option node) (p : list E) : list (N * V) :=
    match o with Some n => vers n p | None => [] end.

  Lemma del_spec n p q : wf n -> walk n p <> None ->
    (q = p -> overs (del ltb live n p) q = rest_of n p) /\
    (q <> p -> overs (del ltb live n p) q = vers n q).
  Proof.
    revert n q. induction p as [|e p IH]; intros n q Hw Hp.
    - cbn. unfold rest_of. cbn. split; intros Hq.
      + subst q. destruct (negb (is_nil (n_cs n))); [reflexivity|].
        destruct (has_alive live (removelast (n_vs n))); reflexivity.
      + destruct q as [|e' q]; [contradiction|].
        destruct (is_nil (n_cs n)) eqn:Hn; cbn.
        * apply is_nil_spec in Hn. unfold vers. cbn. rewrite Hn. cbn.
          destruct (has_alive live (removelast (n_vs n))); reflexivity.
        * reflexivity.
    - cbn [del]. cbn in Hp. destruct (child_at (n_cs n) e) as [c|] eqn:Hc; [|contradiction].
      destruct (wf_child _ _ _ Hw Hc) as [Hwc _].
      assert (Hr : rest_of n (e :: p) = rest_of c p) by (unfold rest_of; cbn; rewrite Hc; reflexivity).
      rewrite Hr. destruct (del ltb live c p) as [c'|] eqn:Hd.
      + split; intros Hq.
        * subst q. cbn [overs]. rewrite vers_cons. cbn [n_cs].
          destruct (child_at_put _ _ c' _ e Hc (wf_sorted _ Hw)) as [H1 _].
          rewrite (H1 eq_refl). destruct (IH c p Hwc Hp) as [H2 _]. rewrite Hd in H2. apply H2. reflexivity.
        * destruct q as [|e' q]; [reflexivity|]. cbn [overs]. rewrite !vers_cons. cbn [n_cs].
          destruct (child_at_put _ _ c' _ e' Hc (wf_sorted _ Hw)) as [H1 H2].
          destruct (eqE_dec e' e) as [->|Hn].
          -- rewrite (H1 eq_refl), Hc. destruct (IH c q Hwc Hp) as [_ H3]. rewrite Hd in H3. apply H3. congruence.
          -- rewrite (H2 Hn). reflexivity.
      + assert (H3 : forall q', q' <> p -> vers c q' = []).
        { intros q' Hq'. destruct (IH c q' Hwc Hp) as [_ H3]. rewrite Hd in H3. symmetry. apply H3, Hq'. }
        assert (H4 : rest_of c p = []).
        { destruct (IH c p Hwc Hp) as [H4 _]. rewrite Hd in H4. symmetry. apply H4. reflexivity. }
        rewrite H4. pose proof (child_at_rem _ _ _ e (wf_sorted _ Hw) Hc) as [R1 _].
        assert (R2 : forall e', e' <> e -> child_at (rem_child (n_cs n) e) e' = child_at (n_cs n) e').
        { intros e' He'. destruct (child_at_rem _ _ _ e' (wf_sorted _ Hw) Hc) as [_ R]. apply R, He'. }
        destruct (is_nil (rem_child (n_cs n) e) && is_nil (n_vs n)) eqn:Hk; cbn [overs].
        * apply andb_true_iff in Hk. destruct Hk as [Hk1 Hk2].
          apply is_nil_spec in Hk1, Hk2. split; [reflexivity|]. intros Hq.
          destruct q as [|e' q]; [rewrite vers_nil; auto|]. rewrite vers_cons.
          destruct (eqE_dec e' e) as [->|Hn].
          -- rewrite Hc. symmetry. apply H3. congruence.
          -- rewrite <- (R2 _ Hn), Hk1. reflexivity.
        * split; intros Hq.
          -- subst q. rewrite vers_cons. cbn [n_cs]. rewrite (R1 eq_refl). reflexivity.
          -- destruct q as [|e' q]; [reflexivity|]. rewrite !vers_cons. cbn [n_cs].
             destruct (eqE_dec e' e) as [->|Hn].
             ++ rewrite (R1 eq_refl), Hc. symmetry. apply H3. congruence.
             ++ rewrite (R2 _ Hn). reflexivity.
  Qed.

  Lemma filter_nil_alive vs : has_alive live vs = true -> filter (fun v : N * V => live (snd v)) vs <> [].
  Proof.
    unfold has_alive. intros H. apply existsb_exists in H. destruct H as [x [H1 H2]]. intros H3.
    assert (In x (filter (fun v : N * V => live (snd v)) vs)) by (apply filter_In; split; assumption).
    rewrite H3 in H. exact H.
  Qed.

  Lemma wf_del n p m : wf n -> del ltb live n p = Some m -> wf m /\ (full n -> full m).
  Proof.
    revert n m. induction p as [|e p IH]; intros n m Hw; cbn [del].
    - destruct (negb (is_nil (n_cs n))) eqn:Hn.
      + intros [= <-]. destruct Hw as [vs cs Hs Hc]. cbn in *. split; [constructor; assumption|].
        unfold full. cbn. intros _ ->. discriminate Hn.
      + destruct (has_alive live (removelast (n_vs n))) eqn:Ha; [|discriminate]. intros [= <-].
        split; [constructor; [exact I|intros ? ? []]|]. unfold full. cbn. intros _ _. apply filter_nil_alive, Ha.
    - destruct (child_at (n_cs n) e) as [c|] eqn:Hc; [|intros [= <-]; auto].
      destruct (wf_child _ _ _ Hw Hc) as [Hwc Hfc].
      destruct (del ltb live c p) as [c'|] eqn:Hd.
      + intros [= <-]. destruct (IH c c' Hwc Hd) as [H1 H2]. split.
        * constructor; [eapply sorted_put; [exact Hc|apply wf_sorted, Hw]|].
          intros e' x HI. destruct (In_put _ _ _ _ _ _ Hc HI) as [ [-> ->] | HI' ].
          -- split; [exact H1|apply H2, Hfc].
          -- destruct Hw as [vs cs Hs Hcs]. apply (Hcs _ _ HI').
        * unfold full. cbn. intros _ H. apply (f_equal (map fst)) in H. rewrite put_keys in H.
          destruct (n_cs n); discriminate.
      + destruct (is_nil (rem_child (n_cs n) e) && is_nil (n_vs n)) eqn:Hk; [discriminate|]. intros [= <-].
        split.
        * constructor; [eapply sorted_rem; [apply wf_sorted, Hw|exact Hc]|].
          intros e' x HI. apply (In_rem _ _ _ _ _ (wf_sorted _ Hw) Hc) in HI.
          destruct Hw as [vs cs Hs Hcs]. apply (Hcs e' x), HI.
        * unfold full. cbn. intros _ H1 H2. rewrite H1, H2 in Hk. discriminate.
  Qed.

  (** [upd]. *)
  Lemma vers_upd n p f q : wf n -> walk n p <> None ->
    (q = p -> vers (upd ltb n p f) q = f (vers n p)) /\
    (q <> p -> vers (upd ltb n p f) q = vers n q).
  Proof.
    revert n q. induction p as [|e p IH]; intros n q Hw Hp.
    - split; [intros ->; reflexivity|]. intros Hq. destruct q as [|e' q]; [contradiction|]. reflexivity.
    - cbn [upd]. cbn in Hp. destruct (child_at (n_cs n) e) as [c|] eqn:Hc; [|contradiction].
      destruct (wf_child _ _ _ Hw Hc) as [Hwc _].
      split; intros Hq.
      + subst q. rewrite !vers_cons. cbn [n_cs].
        destruct (child_at_put _ _ (upd ltb c p f) _ e Hc (wf_sorted _ Hw)) as [H1 _].
        rewrite (H1 eq_refl), Hc. apply (IH c p Hwc Hp). reflexivity.
      + destruct q as [|e' q]; [reflexivity|]. rewrite !vers_cons. cbn [n_cs].
        destruct (child_at_put _ _ (upd ltb c p f) _ e' Hc (wf_sorted _ Hw)) as [H1 H2].
        destruct (eqE_dec e' e) as [->|Hn].
        * rewrite (H1 eq_refl), Hc. apply (IH c q Hwc Hp). congruence.
        * rewrite (H2 Hn). reflexivity.
  Qed.

  Lemma wf_upd n p f : wf n -> (forall vs, vs <> [] -> f vs <> []) -> full n -> walk n p <> None ->
    wf (upd ltb n p f) /\ full (upd ltb n p f).
  Proof.
    intros Hw Hf. revert n Hw. induction p as [|e p IH]; intros n Hw Hfn Hp; cbn [upd].
    - destruct Hw as [vs cs Hs Hc]. split; [constructor; assumption|]. unfold full in *. cbn in *. auto.
    - cbn in Hp. destruct (child_at (n_cs n) e) as [c|] eqn:Hc; [|contradiction].
      destruct (wf_child _ _ _ Hw Hc) as [Hwc Hfc]. destruct (IH c Hwc Hfc Hp) as [H1 H2]. split.
      + constructor; [eapply sorted_put; [exact Hc|apply wf_sorted, Hw]|].
        intros e' x HI. destruct (In_put _ _ _ _ _ _ Hc HI) as [ [-> ->] | HI' ]; [split; assumption|].
        destruct Hw as [vs cs Hs Hcs]. apply (Hcs _ _ HI').
      + unfold full. cbn. intros H. apply (f_equal (map fst)) in H. rewrite put_keys in H.
        destruct (n_cs n); discriminate.
  Qed.

  (** All versions below a node. *)
  Fixpoint total (n : node) : nat :=
    match n with Node vs cs => length vs + list_sum (map (fun ec => total (snd ec)) cs) end.
  Definition ctotal (cs : list (E * node)) : nat := list_sum (map (fun ec => total (snd ec)) cs).
  Lemma total_eq n : total n = length (n_vs n) + ctotal (n_cs n).
  Proof. destruct n; reflexivity. Qed.
  Lemma ctotal_cons k c cs : ctotal ((k, c) :: cs) = total c + ctotal cs.
  Proof. reflexivity. Qed.

  Lemma ctotal_put cs e c c0 : child_at cs e = Some c0 -> ctotal (put_child cs e c) + total c0 = ctotal cs + total c.
  Proof.
    induction cs as [|[k x] r IH]; [discriminate|]. cbn [TrieModel.child_at TrieModel.put_child].
    destruct (ltb k e).
    - intros H. rewrite !ctotal_cons. specialize (IH H). lia.
    - destruct (ltb e k); [discriminate|]. intros [= ->]. rewrite !ctotal_cons. lia.
  Qed.
  Lemma ctotal_add cs e c : ctotal (add_child cs e c) = ctotal cs + total c.
  Proof.
    induction cs as [|[k x] r IH]; [cbn; lia|]. cbn [TrieModel.add_child].
    destruct (ltb k e); rewrite !ctotal_cons; lia.
  Qed.
  Lemma ctotal_rem cs e c0 : child_at cs e = Some c0 -> ctotal (rem_child cs e) + total c0 = ctotal cs.
  Proof.
    induction cs as [|[k x] r IH]; [discriminate|]. cbn [TrieModel.child_at TrieModel.rem_child].
    destruct (ltb k e).
    - intros H. rewrite !ctotal_cons. specialize (IH H). lia.
    - destruct (ltb e k); [discriminate|]. intros [= ->]. rewrite !ctotal_cons. lia.
  Qed.
  Lemma total_chain p ver (v : V) : total (chain p ver v) = 1.
  Proof. induction p as [|e p IH]; [reflexivity|]. cbn. rewrite IH. reflexivity. Qed.

  Lemma total_ins n p ver v : total (ins ltb n p ver v) = total n + 1.
  Proof.
    revert n. induction p as [|e p IH]; intros n; cbn [ins].
    - rewrite !total_eq. cbn [n_vs n_cs]. rewrite app_length. cbn. lia.
    - destruct (child_at (n_cs n) e) as [c|] eqn:Hc; rewrite !total_eq; cbn [n_vs n_cs].
      + pose proof (ctotal_put _ _ (ins ltb c p ver v) _ Hc) as H. rewrite (IH c) in H. lia.
      + rewrite ctotal_add, total_chain. lia.
  Qed.

  Definition ototal (o : option node) : nat := match o with Some n => total n | None => 0 end.

  Lemma length_removelast (A : Type) (l : list A) : l <> [] -> S (length (removelast l)) = length l.
  Proof.
    intros H. destruct (exists_last H) as [l' [x ->]]. rewrite removelast_last, app_length. cbn. lia.
  Qed.

  Lemma filter_length_split (A : Type) (f : A -> bool) l :
    length (filter f l) + length (filter (fun x => negb (f x)) l) = length l.
  Proof. induction l as [|x l IH]; [reflexivity|]. cbn. destruct (f x); cbn; lia. Qed.

  (** The versions that leave the trie with [del], besides the latest one. *)
  Definition lost_of (n : node) (p : list E) : nat :=
    match walk n p with
    | None => 0
    | Some m =>
        let rest := removelast (n_vs m) in
        length (if negb (is_nil (n_cs m)) then []
                else if has_alive live rest then filter (fun v => negb (live (snd v))) rest else rest)
    end.

  Lemma total_del n p : (exists m, walk n p = Some m /\ n_vs m <> []) ->
    ototal (del ltb live n p) + lost_of n p + 1 = total n.
  Proof.
    revert n. induction p as [|e p IH]; intros n [m [Hm Hv]]; cbn [del].
    - cbn in Hm. injection Hm as <-. pose proof (length_removelast _ _ Hv) as HL. unfold lost_of. cbn [TrieModel.walk].
      rewrite (total_eq n). destruct (is_nil (n_cs n)) eqn:Hn; cbn [negb].
      + apply is_nil_spec in Hn. rewrite Hn. destruct (has_alive live (removelast (n_vs n))).
        * cbn [ototal]. rewrite total_eq. cbn [n_vs n_cs]. cbn [ctotal list_sum map fold_right].
          pose proof (filter_length_split _ (fun v : N * V => live (snd v)) (removelast (n_vs n))) as HF.
          unfold ctotal. cbn. lia.
        * cbn [ototal]. unfold ctotal. cbn. lia.
      + cbn [ototal]. rewrite total_eq. cbn [n_vs n_cs length]. lia.
    - cbn in Hm. destruct (child_at (n_cs n) e) as [c|] eqn:Hc; [|discriminate].
      assert (Hl : lost_of n (e :: p) = lost_of c p) by (unfold lost_of; cbn; rewrite Hc; reflexivity).
      rewrite Hl. assert (Hx : exists m', walk c p = Some m' /\ n_vs m' <> []) by (exists m; auto).
      specialize (IH c Hx). rewrite (total_eq n).
      destruct (del ltb live c p) as [c'|]; cbn [ototal] in IH.
      + cbn [ototal]. rewrite total_eq. cbn [n_vs n_cs]. pose proof (ctotal_put _ _ c' _ Hc). lia.
      + pose proof (ctotal_rem _ _ _ Hc) as HR.
        destruct (is_nil (rem_child (n_cs n) e) && is_nil (n_vs n)) eqn:Hk; cbn [ototal].
        * apply andb_true_iff in Hk. destruct Hk as [Hk1 Hk2]. apply is_nil_spec in Hk1, Hk2.
          rewrite Hk1 in HR. rewrite Hk2. unfold ctotal in *. cbn in *. lia.
        * rewrite total_eq. cbn [n_vs n_cs]. lia.
  Qed.

  (** Some key with versions below every node. *)
  Lemma full_key n : wf n -> full n -> exists q, vers n q <> [].
  Proof.
    revert n. fix F 2. intros n Hw. destruct Hw as [vs cs Hs Hc]. intros Hf.
    destruct cs as [|[k c] r].
    - exists []. apply Hf. reflexivity.
    - destruct (Hc k c (or_introl eq_refl)) as [Hwc Hfc]. destruct (F c Hwc Hfc) as [q Hq].
      exists (k :: q). rewrite vers_cons. cbn. rewrite irr. exact Hq.
  Qed.

  Lemma total_key n q : vers n q <> [] -> 0 < total n.
  Proof.
    revert n. induction q as [|e q IH]; intros n H; rewrite total_eq.
    - rewrite vers_nil in H. destruct (n_vs n); [contradiction|]. cbn. lia.
    - rewrite vers_cons in H. destruct (child_at (n_cs n) e) as [c|] eqn:Hc; [|contradiction].
      specialize (IH c H). pose proof (ctotal_rem _ _ _ Hc). lia.
  Qed.

  (** The trie. *)
  Definition twf (t : trie) : Prop :=
    match t_root t with
    | None => t_size t = 0%N
    | Some r => wf r /\ full r /\ t_size t = N.of_nat (total r)
    end.
  Definition lk (t : trie) (p : list E) : list (N * V) := overs (t_root t) p.

  Lemma twf_empty : twf empty_trie.
  Proof. reflexivity. Qed.
  Lemma lk_empty p : lk empty_trie p = [].
  Proof. reflexivity. Qed.

  Lemma find_lk t p : find ltb t p = match lk t p with [] => None | vs => Some vs end.
  Proof.
    unfold find, lk, overs, vers. destruct (t_root t) as [r|]; [|reflexivity].
    destruct (walk r p) as [m|]; [|reflexivity]. unfold has_versions. destruct (n_vs m); reflexivity.
  Qed.

  (** The root [insert] starts from. *)
  Definition base (t : trie) : node := match t_root t with Some r => r | None => Node [] [] end.

  Lemma base_wf t : twf t -> wf (base t) /\ (full (base t) \/ base t = Node [] []).
  Proof.
    unfold twf, base. destruct (t_root t) as [r|]; [tauto|]. intros _.
    split; [constructor; [exact I|intros ? ? []]|right; reflexivity].
  Qed.

  Lemma base_vers t p : vers (base t) p = lk t p.
  Proof. unfold lk, base. destruct (t_root t); [reflexivity|]. destruct p; reflexivity. Qed.

  Lemma base_start t : twf t ->
    (if (t_size t =? 0)%N then Node [] [] else match t_root t with Some r => r | None => Node [] [] end) = base t.
  Proof.
    unfold twf, base. destruct (t_root t) as [r|] eqn:Hr.
    - intros [Hw [Hf Hs]]. destruct (full_key r Hw Hf) as [q Hq]. pose proof (total_key _ _ Hq).
      destruct (N.eqb_spec (t_size t) 0); [lia|reflexivity].
    - intros H. destruct (t_size t =? 0)%N; reflexivity.
  Qed.

  Lemma insert_spec t p v : twf t ->
    let t' := fst (insert ltb t p v) in
    twf t' /\ t_cur t' = (t_cur t + 1)%N /\ lk t' p = lk t p ++ [(t_cur t, v)] /\
    (forall q, q <> p -> lk t' q = lk t q).
  Proof.
    intros Hw. unfold insert. cbn [fst]. rewrite (base_start t Hw).
    destruct (base_wf t Hw) as [Hb Hf]. cbn [t_cur t_root lk overs].
    split; [|split; [reflexivity|split] ].
    - unfold twf. cbn [t_root t_size]. split; [apply wf_ins, Hb|]. split; [apply full_ins, Hf|].
      rewrite total_ins. unfold twf in Hw. unfold base. destruct (t_root t) as [r|].
      + destruct Hw as [_ [_ ->]]. lia.
      + rewrite Hw. cbn. lia.
    - destruct (vers_ins (base t) p (t_cur t) v p Hb) as [H _]. unfold lk at 1. cbn [t_root overs]. rewrite (H eq_refl), base_vers. reflexivity.
    - intros q Hq. destruct (vers_ins (base t) p (t_cur t) v q Hb) as [_ H]. unfold lk at 1. cbn [t_root overs].
      rewrite (H Hq), base_vers. reflexivity.
  Qed.

  (** When [insert] completes: the key is present already, or the smallest element that follows the
      key's parent is itself the end of a key. *)
  Definition smallest_ok (look : list E -> list (N * V)) (p : list E) : Prop :=
    match rev p with
    | [] => True
    | _ :: rq =>
        exists e0, look (rev rq ++ [e0]) <> [] /\
                   forall e1 tl, look (rev rq ++ e1 :: tl) <> [] -> ltb e1 e0 = false
    end.

  Lemma vers_app n q p : vers n (q ++ p) = match walk n q with Some m => vers m p | None => [] end.
  Proof.
    revert n. induction q as [|e q IH]; intros n; [reflexivity|]. cbn [app]. rewrite vers_cons. cbn.
    destruct (child_at (n_cs n) e); [apply IH|reflexivity].
  Qed.

  Lemma first_ok_walk (n : node) q e : first_ok ltb n (q ++ [e]) =
    match walk n q with
    | Some m => match n_cs m with [] => false | (_, c) :: _ => has_versions c end
    | None => false
    end.
  Proof.
    revert n. induction q as [|a q IH]; intros n; [reflexivity|].
    cbn [app TrieModel.walk]. destruct (q ++ [e]) as [|b l] eqn:Hq; [destruct q; discriminate|].
    cbn [first_ok]. destruct (child_at (n_cs n) a); [apply IH|reflexivity].
  Qed.

  Lemma walk_wf n q m : wf n -> walk n q = Some m -> wf m.
  Proof.
    revert n. induction q as [|e q IH]; intros n Hw; cbn.
    - intros [= <-]. exact Hw.
    - destruct (child_at (n_cs n) e) as [c|] eqn:Hc; [|discriminate]. apply IH. apply (wf_child _ _ _ Hw Hc).
  Qed.

  Lemma first_ok_spec (r : node) p : wf r -> vers r p <> [] ->
    (first_ok ltb r p = true <-> smallest_ok (vers r) p).
  Proof.
    intros Hw Hp. unfold smallest_ok. destruct (rev p) as [|e rq] eqn:Hr.
    - apply (f_equal (@rev E)) in Hr. rewrite rev_involutive in Hr. subst p. split; [intros; exact I|reflexivity].
    - apply (f_equal (@rev E)) in Hr. rewrite rev_involutive in Hr. cbn in Hr. subst p.
      rewrite first_ok_walk. set (q := rev rq) in *. rewrite vers_app in Hp.
      destruct (walk r q) as [m|] eqn:Hm; [|contradiction]. pose proof (walk_wf _ _ _ Hw Hm) as Hwm.
      assert (HV : forall tl, vers r (q ++ tl) = vers m tl) by (intros tl; rewrite vers_app, Hm; reflexivity).
      destruct Hwm as [vs cs Hs Hc]. cbn [n_cs]. destruct cs as [|[k c] rest].
      + split; [discriminate|]. intros [e0 [He0 _]]. rewrite HV, vers_cons in He0. cbn in He0. contradiction.
      + assert (Hk : vers r (q ++ [k]) = n_vs c) by (rewrite HV, vers_cons; cbn; rewrite irr; reflexivity).
        unfold has_versions. split.
        * intros Hv. exists k. split.
          -- rewrite Hk. apply is_nil_false. destruct (is_nil (n_vs c)); [discriminate|reflexivity].
          -- intros e1 tl H1. rewrite HV, vers_cons in H1. cbn [n_cs TrieModel.child_at] in H1.
             destruct (ltb k e1) eqn:L1; [apply asym, L1|]. destruct (ltb e1 k); [contradiction|reflexivity].
        * intros [e0 [He0 Hmin]]. rewrite HV, vers_cons in He0. cbn [n_cs TrieModel.child_at] in He0.
          destruct (ltb k e0) eqn:L1.
          -- exfalso. destruct (Hc k c (or_introl eq_refl)) as [Hwc Hfc]. destruct (full_key c Hwc Hfc) as [tl Htl].
             assert (HH : vers r (q ++ k :: tl) <> []) by (rewrite HV, vers_cons; cbn; rewrite irr; exact Htl).
             rewrite (Hmin k tl HH) in L1. discriminate.
          -- destruct (ltb e0 k) eqn:L2; [contradiction|]. rewrite vers_nil in He0. destruct (n_vs c); [contradiction|reflexivity].
  Qed.

  Lemma insert_ok t p v : twf t ->
    (snd (insert ltb t p v) = true <-> lk t p <> [] \/ smallest_ok (lk (fst (insert ltb t p v))) p).
  Proof.
    intros Hw. pose proof (insert_spec t p v Hw) as [_ [_ [HS _]]]. revert HS. unfold insert. cbn [snd fst].
    rewrite (base_start t Hw). destruct (base_wf t Hw) as [Hb Hf]. intros HS.
    rewrite orb_true_iff.
    assert (Hr : wf (ins ltb (base t) p (t_cur t) v)) by (apply wf_ins, Hb).
    assert (Hp : vers (ins ltb (base t) p (t_cur t) v) p <> []).
    { unfold lk at 1 in HS. cbn [t_root overs] in HS. rewrite HS. destruct (lk t p); discriminate. }
    rewrite (first_ok_spec _ _ Hr Hp).
    assert (H1 : match walk (base t) p with Some m => has_versions m | None => false end = true <-> lk t p <> []).
    { rewrite <- base_vers. unfold vers. destruct (walk (base t) p) as [m|]; [|split; [discriminate|contradiction] ].
      unfold has_versions. destruct (n_vs m); cbn; split; congruence. }
    rewrite H1. reflexivity.
  Qed.

  Definition has_longer (t : trie) (p : list E) : Prop := exists e tl, lk t (p ++ e :: tl) <> [].

  Lemma erase_spec t p : twf t -> lk t p <> [] ->
    let t' := fst (erase ltb live t p) in
    twf t' /\ t_cur t' = t_cur t /\
    (forall q, q <> p -> lk t' q = lk t q) /\
    (has_longer t p -> lk t' p = removelast (lk t p) /\ snd (erase ltb live t p) = false) /\
    (~ has_longer t p -> has_alive live (removelast (lk t p)) = false ->
       lk t' p = [] /\ snd (erase ltb live t p) = true).
  Proof.
    intros Hw Hp. unfold erase. rewrite find_lk. unfold twf in Hw. unfold lk in Hp.
    destruct (t_root t) as [r|] eqn:Hr; [|contradiction]. cbn [overs] in Hp. destruct Hw as [Hwr [Hfr Hs]].
    assert (HL : lk t p = vers r p) by (unfold lk; rewrite Hr; reflexivity).
    rewrite HL. destruct (vers r p) as [|v0 vr] eqn:Hv; [contradiction|]. cbn [fst snd].
    assert (Hm : exists m, walk r p = Some m /\ n_vs m = v0 :: vr).
    { unfold vers in Hv. destruct (walk r p) as [m|]; [|discriminate]. exists m. auto. }
    destruct Hm as [m [Hm Hmv]]. rewrite Hm. cbn [t_cur t_root].
    pose proof (walk_wf _ _ _ Hwr Hm) as Hwm.
    assert (Hne : walk r p <> None) by congruence.
    assert (HLng : has_longer t p <-> n_cs m <> []).
    { unfold has_longer, lk. rewrite Hr. cbn [overs]. split.
      - intros [e [tl H]]. rewrite vers_app, Hm, vers_cons in H. intros H0. rewrite H0 in H. cbn in H. contradiction.
      - intros H. destruct Hwm as [vs cs Hs' Hc]. cbn in H. destruct cs as [|[k c] rest]; [contradiction|].
        destruct (Hc k c (or_introl eq_refl)) as [Hwc Hfc]. destruct (full_key c Hwc Hfc) as [tl Htl].
        exists k, tl. rewrite vers_app, Hm, vers_cons. cbn. rewrite irr. exact Htl. }
    split; [|split; [reflexivity|split; [|split] ] ].
    - unfold twf. cbn [t_root t_size].
      assert (Hx : exists m', walk r p = Some m' /\ n_vs m' <> []) by (exists m; split; [exact Hm|rewrite Hmv; discriminate]).
      pose proof (total_del r p Hx) as HT. unfold lost_of in HT. rewrite Hm, Hmv in HT.
      destruct (del ltb live r p) as [r'|] eqn:Hd; cbn [ototal] in HT.
      + destruct (wf_del r p r' Hwr Hd) as [H1 H2]. split; [exact H1|]. split; [apply H2, Hfr|]. rewrite Hs. lia.
      + rewrite Hs. lia.
    - intros q Hq. destruct (del_spec r p q Hwr Hne) as [_ H]. unfold lk. cbn [t_root]. rewrite Hr. apply H, Hq.
    - intros HH. apply HLng in HH. destruct (del_spec r p p Hwr Hne) as [H _]. unfold lk. cbn [t_root].
      rewrite (H eq_refl). unfold rest_of, killed. rewrite Hm, Hmv.
      apply is_nil_false in HH. rewrite HH. split; reflexivity.
    - intros HH Ha. assert (Hn : n_cs m = []).
      { destruct (n_cs m) eqn:Hn; [reflexivity|]. exfalso. apply HH, HLng. discriminate. }
      destruct (del_spec r p p Hwr Hne) as [H _]. unfold lk. cbn [t_root].
      rewrite (H eq_refl). unfold rest_of, killed. rewrite Hm, Hmv, Hn. cbn [is_nil negb].
      change (removelast (v0 :: vr)) with (removelast (v0 :: vr)) in Ha. rewrite Ha. split; reflexivity.
  Qed.

  Lemma longer_dec t p : twf t -> has_longer t p \/ ~ has_longer t p.
  Proof.
    intros Hw. unfold twf in Hw. unfold has_longer, lk. destruct (t_root t) as [r|]; cbn [overs].
    - destruct Hw as [Hwr _]. destruct (walk r p) as [m|] eqn:Hm.
      + pose proof (walk_wf _ _ _ Hwr Hm) as Hwm. destruct Hwm as [vs cs Hs' Hc]. destruct cs as [|[k c] rest].
        * right. intros [e [tl H]]. rewrite vers_app, Hm, vers_cons in H. cbn in H. contradiction.
        * left. destruct (Hc k c (or_introl eq_refl)) as [Hwc Hfc]. destruct (full_key c Hwc Hfc) as [tl Htl].
          exists k, tl. rewrite vers_app, Hm, vers_cons. cbn. rewrite irr. exact Htl.
      + right. intros [e [tl H]]. rewrite vers_app, Hm in H. contradiction.
    - right. intros [e [tl H]]. contradiction.
  Qed.

  Lemma update_spec t p f : twf t -> lk t p <> [] -> (forall vs, length (f vs) = length vs) ->
    let t' := update ltb t p f in
    twf t' /\ t_cur t' = t_cur t /\ lk t' p = f (lk t p) /\ (forall q, q <> p -> lk t' q = lk t q).
  Proof.
    intros Hw Hp Hf. unfold update, twf, lk in *. cbn [t_root t_size t_cur].
    destruct (t_root t) as [r|] eqn:Hr; [|contradiction]. cbn [overs] in *. destruct Hw as [Hwr [Hfr Hs]].
    assert (Hne : walk r p <> None) by (unfold vers in Hp; destruct (walk r p); congruence).
    assert (Hf' : forall vs, vs <> [] -> f vs <> []).
    { intros vs Hvs Hx. specialize (Hf vs). rewrite Hx in Hf. destruct vs; [contradiction|discriminate]. }
    destruct (wf_upd r p f Hwr Hf' Hfr Hne) as [H1 H2]. split; [|split; [reflexivity|split] ].
    - split; [exact H1|]. split; [exact H2|]. rewrite Hs. f_equal. clear - Hf irr trans tot.
      revert r. induction p as [|e p IH]; intros r; cbn [upd]; rewrite (total_eq r).
      + rewrite total_eq. cbn [n_vs n_cs]. rewrite Hf. reflexivity.
      + destruct (child_at (n_cs r) e) as [c|] eqn:Hc; [|symmetry; apply total_eq].
        rewrite total_eq. cbn [n_vs n_cs]. pose proof (ctotal_put _ _ (upd ltb c p f) _ Hc) as HP.
        rewrite <- (IH c) in HP. lia.
    - destruct (vers_upd r p f p Hwr Hne) as [H _]. apply H. reflexivity.
    - intros q Hq. destruct (vers_upd r p f q Hwr Hne) as [_ H]. apply H, Hq.
  Qed.

  (** A trie in which the beginnings of the key's siblings are keys: [insert] completes. *)
  Lemma insert_ok_closed t q e v : twf t ->
    (forall e1 tl, lk t (q ++ e1 :: tl) <> [] -> lk t (q ++ [e1]) <> []) ->
    snd (insert ltb t (q ++ [e]) v) = true.
  Proof.
    intros Hw Hcl. pose proof (insert_spec t (q ++ [e]) v Hw) as [Hw' [_ [HS HO]]].
    revert Hw' HS HO. unfold insert. cbn [snd fst]. rewrite (base_start t Hw).
    set (r := ins ltb (base t) (q ++ [e]) (t_cur t) v). unfold lk at 1 3. cbn [t_root overs]. intros Hw' HS HO.
    unfold twf in Hw'. cbn [t_root] in Hw'. destruct Hw' as [Hwr _]. apply orb_true_iff. right.
    rewrite first_ok_walk.
    assert (Hcl' : forall e1 tl, vers r (q ++ e1 :: tl) <> [] -> vers r (q ++ [e1]) <> []).
    { intros e1 tl H1. destruct (eql_dec (q ++ [e1]) (q ++ [e])) as [Eq|Eq].
      - rewrite Eq, HS. destruct (lk t (q ++ [e])); discriminate.
      - rewrite (HO _ Eq). apply (Hcl e1 tl). destruct (eql_dec (q ++ e1 :: tl) (q ++ [e])) as [E2|E2].
        + apply app_inv_head in E2. injection E2 as -> ->. contradiction.
        + rewrite <- (HO _ E2). exact H1. }
    assert (Hne : vers r (q ++ [e]) <> []) by (rewrite HS; destruct (lk t (q ++ [e])); discriminate).
    rewrite vers_app in Hne. destruct (walk r q) as [m|] eqn:Hm; [|contradiction].
    pose proof (walk_wf _ _ _ Hwr Hm) as Hwm. destruct Hwm as [vs cs Hs Hc]. cbn [n_cs].
    destruct cs as [|[k c] rest]; [rewrite vers_cons in Hne; cbn in Hne; contradiction|].
    destruct (Hc k c (or_introl eq_refl)) as [Hwc Hfc]. destruct (full_key c Hwc Hfc) as [tl Htl].
    assert (HH : vers r (q ++ k :: tl) <> []) by (rewrite vers_app, Hm, vers_cons; cbn; rewrite irr; exact Htl).
    apply Hcl' in HH. rewrite vers_app, Hm, vers_cons in HH. cbn in HH. rewrite irr in HH. unfold vers in HH. cbn in HH.
    unfold has_versions. destruct (n_vs c); [contradiction|reflexivity].
  Qed.

  Fixpoint key_sorted (l : list E) : Prop :=
    match l with [] => True | a :: r => (forall b, In b r -> ltb a b = true) /\ key_sorted r end.
  Lemma sorted_keys cs : sorted cs -> key_sorted (map fst cs).
  Proof.
    induction cs as [|[k c] r IH]; [intros; exact I|]. cbn. intros [H1 H2]. split; [|apply IH, H2].
    intros b Hb. apply in_map_iff in Hb. destruct Hb as [[k' c'] [<- Hb]]. apply (H1 _ _ Hb).
  Qed.

  Lemma next_spec t p : twf t ->
    key_sorted (next_elements ltb t p) /\
    forall e, In e (next_elements ltb t p) <-> exists tl, lk t (p ++ e :: tl) <> [].
  Proof.
    intros Hw. unfold twf in Hw. unfold next_elements, lk. destruct (t_root t) as [r|]; cbn [overs].
    2: { split; [exact I|]. intros e. split; [intros []|intros [tl H]; contradiction]. }
    destruct Hw as [Hwr _]. destruct (walk r p) as [m|] eqn:Hm.
    2: { split; [exact I|]. intros e. split; [intros []|]. intros [tl H]. rewrite vers_app, Hm in H. contradiction. }
    pose proof (walk_wf _ _ _ Hwr Hm) as Hwm. destruct Hwm as [vs cs Hs Hc]. cbn [n_cs].
    split; [apply sorted_keys, Hs|]. intros e. split.
    - intros HI. apply in_map_iff in HI. destruct HI as [[k c] [<- HI]]. cbn.
      destruct (Hc k c HI) as [Hwc Hfc]. destruct (full_key c Hwc Hfc) as [tl Htl]. exists tl.
      rewrite vers_app, Hm, vers_cons. cbn [n_cs]. rewrite (In_child_at _ _ _ Hs HI). exact Htl.
    - intros [tl H]. rewrite vers_app, Hm, vers_cons in H. cbn [n_cs] in H.
      destruct (child_at cs e) as [c|] eqn:Hce; [|contradiction]. apply child_at_In in Hce.
      apply in_map_iff. exists (e, c). auto.
  Qed.
End TrieFacts.
