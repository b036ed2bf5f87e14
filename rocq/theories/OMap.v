(** Ordered association lists: the model of [std::map] (keys kept sorted by the key order).
    [minsert] is insert_or_assign, [mfind] is find, [merase] is erase by key. *)
From Coq Require Import List Sorted Bool Arith Lia.
Import ListNotations.

Section OMap.
  Context {K V : Type} (cmp : K -> K -> comparison).

  Fixpoint mfind (k : K) (m : list (K * V)) : option V :=
    match m with
    | [] => None
    | (k', v) :: r => match cmp k k' with
                      | Eq => Some v
                      | _ => mfind k r
                      end
    end.

  Fixpoint minsert (k : K) (v : V) (m : list (K * V)) : list (K * V) :=
    match m with
    | [] => [(k, v)]
    | (k', v') :: r => match cmp k k' with
                       | Eq => (k, v) :: r
                       | Lt => (k, v) :: m
                       | Gt => (k', v') :: minsert k v r
                       end
    end.

  Fixpoint merase (k : K) (m : list (K * V)) : list (K * V) :=
    match m with
    | [] => []
    | (k', v') :: r => match cmp k k' with
                       | Eq => r
                       | _ => (k', v') :: merase k r
                       end
    end.

  (** [emplace]/[insert]: keeps an existing entry. *)
  Definition memplace (k : K) (v : V) (m : list (K * V)) : list (K * V) :=
    match mfind k m with Some _ => m | None => minsert k v m end.

  Definition mmem (k : K) (m : list (K * V)) : bool :=
    match mfind k m with Some _ => true | None => false end.

  Definition klt (a b : K * V) : Prop := cmp (fst a) (fst b) = Lt.
  Definition msorted (m : list (K * V)) : Prop := StronglySorted klt m.

  Hypothesis cmp_eq : forall a b, cmp a b = Eq <-> a = b.
  Hypothesis cmp_sym : forall a b, cmp b a = CompOpp (cmp a b).
  Hypothesis cmp_trans : forall a b c, cmp a b = Lt -> cmp b c = Lt -> cmp a c = Lt.

  Lemma cmp_refl a : cmp a a = Eq.
  Proof. apply cmp_eq. reflexivity. Qed.

  Lemma mfind_insert_same k v m : mfind k (minsert k v m) = Some v.
  Proof.
    induction m as [|[k' v'] m IH]; cbn.
    - rewrite cmp_refl. reflexivity.
    - destruct (cmp k k') eqn:E; cbn; rewrite ?cmp_refl, ?E; auto.
  Qed.

  Lemma mfind_insert_other k k' v m : k' <> k -> mfind k' (minsert k v m) = mfind k' m.
  Proof.
    intros N. induction m as [|[k2 v2] m IH]; cbn.
    - destruct (cmp k' k) eqn:E; auto. apply cmp_eq in E. contradiction.
    - destruct (cmp k k2) eqn:E; cbn.
      + apply cmp_eq in E. subst. destruct (cmp k' k2) eqn:E; auto.
        apply cmp_eq in E. contradiction.
      + destruct (cmp k' k) eqn:E2; auto. apply cmp_eq in E2. contradiction.
      + destruct (cmp k' k2); auto.
  Qed.

  Lemma mfind_Some_in k v m : mfind k m = Some v -> In (k, v) m.
  Proof.
    induction m as [|[k' v'] m IH]; cbn; [discriminate|].
    destruct (cmp k k') eqn:E; intros H; auto.
    apply cmp_eq in E. injection H as ->. subst. left. reflexivity.
  Qed.

  Lemma mfind_None_notin k m : mfind k m = None <-> ~ In k (map fst m).
  Proof.
    induction m as [|[k' v'] m IH]; cbn; [intuition|].
    destruct (cmp k k') eqn:E.
    - apply cmp_eq in E. subst. split; [discriminate|intuition].
    - rewrite IH. intuition. subst. rewrite cmp_refl in E. discriminate.
    - rewrite IH. intuition. subst. rewrite cmp_refl in E. discriminate.
  Qed.

  Lemma mmem_true k m : mmem k m = true <-> In k (map fst m).
  Proof.
    unfold mmem. destruct (mfind k m) eqn:E.
    - split; auto. intros _. apply mfind_Some_in in E. apply (in_map fst) in E. exact E.
    - apply mfind_None_notin in E. split; [discriminate|contradiction].
  Qed.

  Lemma insert_in x k v m : In x (minsert k v m) -> x = (k, v) \/ In x m.
  Proof.
    induction m as [|[k' v'] m IH]; cbn; [intuition|].
    destruct (cmp k k'); cbn; intuition.
  Qed.

  Lemma msorted_insert k v m : msorted m -> msorted (minsert k v m).
  Proof.
    intros H. induction H as [|[k' v'] m H IH F]; cbn.
    - repeat constructor.
    - destruct (cmp k k') eqn:E.
      + apply cmp_eq in E. subst. constructor; [exact H|exact F].
      + constructor; [constructor; assumption|]. constructor; [exact E|].
        rewrite Forall_forall in *. intros y Hy. specialize (F y Hy). unfold klt in *. cbn in *.
        eapply cmp_trans; eassumption.
      + constructor; [exact IH|]. rewrite Forall_forall in *. intros y Hy.
        apply insert_in in Hy as [->|Hy]; [|auto]. unfold klt. cbn. rewrite cmp_sym, E. reflexivity.
  Qed.

  Lemma erase_in x k m : In x (merase k m) -> In x m.
  Proof.
    induction m as [|[k' v'] m IH]; cbn; [intuition|].
    destruct (cmp k k'); cbn; intuition.
  Qed.

  Lemma msorted_erase k m : msorted m -> msorted (merase k m).
  Proof.
    intros H. induction H as [|[k' v'] m H IH F]; cbn; [constructor|].
    destruct (cmp k k').
    - exact H.
    - constructor; [exact IH|]. rewrite Forall_forall in *. intros y Hy. apply F. eapply erase_in. exact Hy.
    - constructor; [exact IH|]. rewrite Forall_forall in *. intros y Hy. apply F. eapply erase_in. exact Hy.
  Qed.

  Lemma sorted_head_notin k v m : msorted ((k, v) :: m) -> mfind k m = None.
  Proof.
    intros H. inversion H as [|? ? H1 F]; subst. apply mfind_None_notin. intros Hin.
    apply in_map_iff in Hin as [[k' v'] [E Hin]]. cbn in E. subst.
    rewrite Forall_forall in F. specialize (F _ Hin). unfold klt in F. cbn in F.
    rewrite cmp_refl in F. discriminate.
  Qed.

  Lemma mfind_erase_same k m : msorted m -> mfind k (merase k m) = None.
  Proof.
    induction m as [|[k' v'] m IH]; intros H; cbn; [reflexivity|].
    destruct (cmp k k') eqn:E.
    - apply cmp_eq in E. subst. eapply sorted_head_notin. exact H.
    - cbn. rewrite E. apply IH. inversion H; assumption.
    - cbn. rewrite E. apply IH. inversion H; assumption.
  Qed.

  Lemma mfind_erase_other k k' m : k' <> k -> mfind k' (merase k m) = mfind k' m.
  Proof.
    intros N. induction m as [|[k2 v2] m IH]; cbn; [reflexivity|].
    destruct (cmp k k2) eqn:E; cbn.
    - apply cmp_eq in E. subst. destruct (cmp k' k2) eqn:E; auto. apply cmp_eq in E. contradiction.
    - destruct (cmp k' k2); auto.
    - destruct (cmp k' k2); auto.
  Qed.

  Lemma msorted_nodup m : msorted m -> NoDup (map fst m).
  Proof.
    intros H. induction H as [|[k v] m H IH F]; cbn; constructor; auto.
    intros Hin. apply in_map_iff in Hin as [[k' v'] [E Hin]]. cbn in E. subst.
    rewrite Forall_forall in F. specialize (F _ Hin). unfold klt in F. cbn in F.
    rewrite cmp_refl in F. discriminate.
  Qed.

  Lemma in_mfind k v m : msorted m -> In (k, v) m -> mfind k m = Some v.
  Proof.
    induction m as [|[k' v'] m IH]; intros H Hin; [destruct Hin|]. cbn.
    inversion H as [|? ? H1 F]; subst. destruct Hin as [E|Hin].
    - injection E as -> ->. rewrite cmp_refl. reflexivity.
    - rewrite Forall_forall in F. specialize (F _ Hin). unfold klt in F. cbn in F.
      rewrite cmp_sym, F. cbn. apply IH; assumption.
  Qed.

  (** inserting above all keys appends *)
  Lemma minsert_last k v m : Forall (fun e => cmp (fst e) k = Lt) m -> minsert k v m = m ++ [(k, v)].
  Proof.
    induction m as [|[k' v'] m IH]; intros H; cbn; [reflexivity|].
    inversion H as [|? ? H1 F]; subst. cbn in H1. rewrite cmp_sym, H1. cbn. rewrite IH by exact F. reflexivity.
  Qed.

  (** two sorted maps with the same lookups are equal *)
  Lemma msorted_ext m1 : forall m2, msorted m1 -> msorted m2 ->
    (forall k, mfind k m1 = mfind k m2) -> m1 = m2.
  Proof.
    induction m1 as [|[k1 v1] m1 IH]; intros [|[k2 v2] m2] H1 H2 E; auto.
    - specialize (E k2). cbn in E. rewrite cmp_refl in E. discriminate.
    - specialize (E k1). cbn in E. rewrite cmp_refl in E. discriminate.
    - inversion H1 as [|? ? S1 F1]; inversion H2 as [|? ? S2 F2]; subst.
      assert (k1 = k2 /\ v1 = v2) as [-> ->].
      { pose proof (E k1) as Ea. pose proof (E k2) as Eb. cbn in Ea, Eb.
        rewrite cmp_refl in Ea, Eb.
        destruct (cmp k1 k2) eqn:C.
        - apply cmp_eq in C. subst. injection Ea as ->. auto.
        - symmetry in Ea. apply mfind_Some_in in Ea. rewrite Forall_forall in F2. specialize (F2 _ Ea).
          unfold klt in F2. cbn in F2. rewrite cmp_sym, C in F2. discriminate.
        - rewrite cmp_sym, C in Eb. cbn in Eb. apply mfind_Some_in in Eb.
          rewrite Forall_forall in F1. specialize (F1 _ Eb). unfold klt in F1. cbn in F1. congruence. }
      f_equal. apply IH; auto. intros k. specialize (E k). cbn in E.
      destruct (cmp k k2) eqn:C; auto. apply cmp_eq in C. subst.
      transitivity (@None V); [|symmetry]; eapply sorted_head_notin; eassumption.
  Qed.

  Lemma minsert_same k v m : msorted m -> mfind k m = Some v -> minsert k v m = m.
  Proof.
    intros H E. apply msorted_ext; auto using msorted_insert.
    intros k'. destruct (cmp k' k) eqn:C.
    - apply cmp_eq in C. subst. rewrite mfind_insert_same. auto.
    - apply mfind_insert_other. intros ->. rewrite cmp_refl in C. discriminate.
    - apply mfind_insert_other. intros ->. rewrite cmp_refl in C. discriminate.
  Qed.

  Lemma mfind_insert_dec k k' v m :
    mfind k' (minsert k v m) = match cmp k' k with Eq => Some v | _ => mfind k' m end.
  Proof.
    destruct (cmp k' k) eqn:C.
    - apply cmp_eq in C. subst. apply mfind_insert_same.
    - apply mfind_insert_other. intros ->. rewrite cmp_refl in C. discriminate.
    - apply mfind_insert_other. intros ->. rewrite cmp_refl in C. discriminate.
  Qed.

  Lemma mfind_erase_dec k k' m : msorted m ->
    mfind k' (merase k m) = match cmp k' k with Eq => None | _ => mfind k' m end.
  Proof.
    intros H. destruct (cmp k' k) eqn:C.
    - apply cmp_eq in C. subst. apply mfind_erase_same. exact H.
    - apply mfind_erase_other. intros ->. rewrite cmp_refl in C. discriminate.
    - apply mfind_erase_other. intros ->. rewrite cmp_refl in C. discriminate.
  Qed.
End OMap.
