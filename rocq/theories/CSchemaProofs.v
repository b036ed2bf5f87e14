(** Proofs about the schema of a schemaless collection. *)
From Verif Require Import Bytes Outcome ByteOrd TrieModel TrieProofs CSchemaModel CSchemaSpec.

(** ** The order of chars *)
Lemma byte_lt b : (N_of_byte b < 256)%N.
Proof. unfold N_of_byte. apply N_ascii_bounded. Qed.
Lemma schar_inj a b : schar a = schar b -> a = b.
Proof.
  unfold schar. intros H. pose proof (byte_lt a) as Ha. pose proof (byte_lt b) as Hb.
  rewrite <- (byte_of_N_of_byte a), <- (byte_of_N_of_byte b). f_equal.
  assert (forall x, (x < 256 -> (x + 128) mod 256 = if x <? 128 then x + 128 else x - 128)%N) as G.
  { intros x Hx. destruct (N.ltb_spec x 128).
    - apply N.mod_small. lia.
    - replace (x + 128)%N with ((x - 128) + 1 * 256)%N by lia. rewrite N.mod_add by lia. apply N.mod_small. lia. }
  rewrite (G _ Ha), (G _ Hb) in H.
  destruct (N.ltb_spec (N_of_byte a) 128), (N.ltb_spec (N_of_byte b) 128); lia.
Qed.
Lemma char_irr a : char_ltb a a = false.
Proof. unfold char_ltb. apply N.ltb_irrefl. Qed.
Lemma char_trans a b c : char_ltb a b = true -> char_ltb b c = true -> char_ltb a c = true.
Proof. unfold char_ltb. rewrite !N.ltb_lt. lia. Qed.
Lemma char_tot a b : char_ltb a b = false -> char_ltb b a = false -> a = b.
Proof. unfold char_ltb. rewrite !N.ltb_ge. intros. apply schar_inj. lia. Qed.

Notation LK s f := (lk char_ltb (fields s) f).
Notation TWF s := (twf char_ltb (fields s)).

Lemma versions_lk s f : versions s f = LK s f.
Proof. unfold versions. rewrite find_lk. destruct (LK s f); reflexivity. Qed.

(** ** Versions of one field *)
Definition vkind (v : N * (ty * N)) : N := ty_kind (fst (snd v)).
Fixpoint rc (k : N) (vs : list (N * (ty * N))) : N :=
  match vs with
  | [] => 0%N
  | v :: r => if (vkind v =? k)%N then snd (snd v) else rc k r
  end.

Lemma has_type_In t vs : has_type t vs = true <-> In (ty_kind t) (map vkind vs).
Proof.
  unfold has_type, ty_eqb. rewrite existsb_exists, in_map_iff. unfold vkind. split.
  - intros [v [H1 H2]]. apply N.eqb_eq in H2. exists v. auto.
  - intros [v [H1 H2]]. exists v. split; [exact H2|]. apply N.eqb_eq. exact H1.
Qed.

Lemma kinds_on_first t g vs : (forall e, fst (g e) = fst e) -> map vkind (on_first t g vs) = map vkind vs.
Proof.
  intros Hg. induction vs as [|[i e] r IH]; [reflexivity|]. cbn. destruct (ty_eqb (fst e) t); cbn.
  - unfold vkind at 1. cbn. rewrite Hg. reflexivity.
  - rewrite IH. reflexivity.
Qed.
Lemma length_on_first t g vs : length (on_first t g vs) = length vs.
Proof. induction vs as [|[i e] r IH]; [reflexivity|]. cbn. destruct (ty_eqb (fst e) t); cbn; congruence. Qed.

Lemma rc_on_first_same t g vs (h : N -> N) : (forall e, fst (g e) = fst e /\ snd (g e) = h (snd e)) ->
  has_type t vs = true -> rc (ty_kind t) (on_first t g vs) = h (rc (ty_kind t) vs).
Proof.
  intros Hg. induction vs as [|[i e] r IH]; [discriminate|]. cbn. unfold vkind. cbn.
  destruct (ty_eqb (fst e) t) eqn:E0; cbn; pose proof E0 as E; unfold ty_eqb in E.
  - intros _. unfold vkind. cbn. destruct (Hg e) as [-> ->]. rewrite E. reflexivity.
  - intros H. unfold vkind. cbn. rewrite E. apply IH, H.
Qed.
Lemma rc_on_first_other t g vs k : (forall e, fst (g e) = fst e) -> k <> ty_kind t ->
  rc k (on_first t g vs) = rc k vs.
Proof.
  intros Hg Hk. induction vs as [|[i e] r IH]; [reflexivity|]. cbn [on_first]. unfold ty_eqb.
  destruct (N.eqb_spec (ty_kind (fst e)) (ty_kind t)) as [E|E]; cbn [rc]; unfold vkind; cbn [snd].
  - rewrite Hg, E. destruct (N.eqb_spec (ty_kind t) k); [congruence|reflexivity].
  - rewrite IH. reflexivity.
Qed.
Lemma rc_absent k vs : ~ In k (map vkind vs) -> rc k vs = 0%N.
Proof.
  induction vs as [|v r IH]; [reflexivity|]. cbn. intros H. destruct (N.eqb_spec (vkind v) k); [tauto|]. apply IH. tauto.
Qed.
Lemma rc_app k vs i t n : has_type t vs = false ->
  rc k (vs ++ [(i, (t, n))]) = if (ty_kind t =? k)%N then n else rc k vs.
Proof.
  intros H. induction vs as [|v r IH].
  - cbn. unfold vkind. cbn. destruct (ty_kind t =? k)%N; reflexivity.
  - cbn in H. apply orb_false_iff in H. destruct H as [H1 H2]. cbn [app rc]. rewrite (IH H2).
    unfold ty_eqb in H1. fold (vkind v) in H1. destruct (N.eqb_spec (vkind v) k) as [E|E]; [|reflexivity].
    destruct (N.eqb_spec (ty_kind t) k); [|reflexivity]. apply N.eqb_neq in H1. congruence.
Qed.
Lemma on_last_app g vs i e : on_last g (vs ++ [(i, e)]) = vs ++ [(i, g e)].
Proof. unfold on_last. rewrite rev_app_distr. cbn. rewrite rev_involutive. reflexivity. Qed.
Lemma length_on_last g vs : length (on_last g vs) = length vs.
Proof.
  unfold on_last. rewrite <- (rev_length vs). destruct (rev vs) as [|[i e] r]; [reflexivity|].
  rewrite rev_length. reflexivity.
Qed.

Definition alive_kinds (vs : list (N * (ty * N))) : list N := map vkind (filter (fun v => is_alive (snd v)) vs).
Lemma alive_kinds_rc vs k : NoDup (map vkind vs) -> (In k (alive_kinds vs) <-> (0 < rc k vs)%N).
Proof.
  unfold alive_kinds. induction vs as [|v r IH]; [cbn; split; [intros []|lia]|].
  cbn [map]. intros H. inversion H as [|x l H1 H2]; subst. specialize (IH H2). cbn [filter rc].
  unfold is_alive at 1. destruct (N.eqb_spec (vkind v) k) as [<-|E].
  - destruct (N.ltb_spec 0 (snd (snd v))) as [L|L].
    + cbn. split; [intros; exact L|auto].
    + split; [|lia]. intros HI. exfalso. apply H1. apply in_map_iff in HI. destruct HI as [w [Hw HI]].
      apply filter_In in HI. apply in_map_iff. exists w. tauto.
  - destruct (0 <? snd (snd v))%N; cbn; rewrite IH; tauto.
Qed.
Lemma alive_kinds_NoDup vs : NoDup (map vkind vs) -> NoDup (alive_kinds vs).
Proof.
  unfold alive_kinds. induction vs as [|v r IH]; [constructor|]. cbn. intros H.
  inversion H as [|x l H1 H2]; subst. destruct (is_alive (snd v)); [|apply IH, H2].
  cbn. constructor; [|apply IH, H2]. intros HI. apply H1. apply in_map_iff in HI.
  destruct HI as [w [Hw HI]]. apply filter_In in HI. apply in_map_iff. exists w. tauto.
Qed.
Lemma has_alive_kinds vs : has_alive is_alive vs = true <-> alive_kinds vs <> [].
Proof.
  unfold has_alive, alive_kinds. induction vs as [|v r IH]; cbn; [split; [discriminate|contradiction]|].
  destruct (is_alive (snd v)); cbn; [split; [discriminate|reflexivity]|exact IH].
Qed.
Lemma all_dead vs : NoDup (map vkind vs) -> has_alive is_alive vs = false -> forall k, rc k vs = 0%N.
Proof.
  intros HN H k. destruct (N.eq_dec (rc k vs) 0) as [E|E]; [exact E|]. exfalso.
  assert (HI : In k (alive_kinds vs)) by (apply alive_kinds_rc; [exact HN|lia]).
  assert (HA : has_alive is_alive vs = true) by (apply has_alive_kinds; intros E0; rewrite E0 in HI; exact HI).
  congruence.
Qed.
Lemma dead_sub vs : has_alive is_alive vs = false -> has_alive is_alive (removelast vs) = false.
Proof.
  destruct vs as [|v0 vr]; [reflexivity|]. intros H.
  destruct (exists_last (l := v0 :: vr)) as [l' [x E]]; [discriminate|]. rewrite E in *. rewrite removelast_last.
  unfold has_alive in *. rewrite existsb_app in H. apply orb_false_iff in H. apply H.
Qed.

(** ** Histories *)
Lemma count_snoc h o f k : count (h ++ [o]) f k = tally f k (count h f k) o.
Proof. unfold count. rewrite fold_left_app. reflexivity. Qed.

Lemma count_bound h f k : (count h f k <= N.of_nat (length h))%N.
Proof.
  induction h as [|o h IH] using rev_ind; [cbn; lia|]. rewrite count_snoc, app_length, Nat2N.inj_add. cbn.
  unfold tally. destruct o as [g t|g t n]; destruct (list_eq_dec ascii_dec g f); try (destruct (ty_kind t =? k)%N); lia.
Qed.

Record Inv (s : cschema) (h : list op) : Prop := {
  I_wf : TWF s;
  I_listed : forall f, listed s f = true <-> LK s f <> [];
  I_nodup : forall f, NoDup (map vkind (LK s f));
  I_alive : forall f, LK s f <> [] -> has_alive is_alive (LK s f) = true;
  I_count : forall f k, rc k (LK s f) = count h f k;
  I_kinds : forall f k, In k (map vkind (LK s f)) -> exists o, In o h /\ op_field o = f /\ op_kind o = k
}.

Lemma inv_empty : Inv empty_schema [].
Proof.
  constructor; intros; cbn in *; try reflexivity; try contradiction.
  - split; [discriminate|contradiction].
  - constructor.
Qed.

Lemma listed_cons s f g : existsb (beqb g) (f :: existing s) = beqb g f || listed s g.
Proof. reflexivity. Qed.

Lemma listed_new fs s f g :
  listed (CSchema fs (if listed s f then existing s else f :: existing s)) g = beqb g f || listed s g.
Proof.
  destruct (listed s f) eqn:E.
  - unfold listed at 1. cbn [existing]. destruct (beqb_spec g f) as [->|]; [exact E|reflexivity].
  - reflexivity.
Qed.

Lemma existsb_filter f g l : existsb (beqb g) (filter (fun x => negb (beqb f x)) l) = negb (beqb f g) && existsb (beqb g) l.
Proof.
  induction l as [|x l IH]; cbn; [rewrite andb_false_r; reflexivity|].
  destruct (beqb_spec f x) as [->|Hx]; cbn.
  - rewrite IH. destruct (beqb_spec x g) as [->|]; cbn; [reflexivity|].
    destruct (beqb_spec g x); [congruence|reflexivity].
  - rewrite IH. destruct (beqb_spec g x) as [->|]; cbn; [|reflexivity].
    destruct (beqb_spec f x); [contradiction|reflexivity].
Qed.

Lemma NoDup_app_one (A : Type) (l : list A) x : NoDup l -> ~ In x l -> NoDup (l ++ [x]).
Proof.
  induction l as [|y l IH]; cbn; intros H1 H2; [constructor; [exact H2|constructor]|].
  inversion H1 as [|a b H3 H4]; subst. constructor.
  - rewrite in_app_iff. cbn. intros [H|[H|[]]]; [contradiction|]. subst. apply H2. left. reflexivity.
  - apply IH; [exact H4|]. tauto.
Qed.

Lemma NoDup_const (l : list N) k : NoDup l -> (forall x, In x l -> x = k) -> length l <= 1.
Proof.
  destruct l as [|a [|b l]]; cbn; try lia. intros H1 H2. exfalso.
  inversion H1 as [|x y H3 _]; subst. apply H3. left. rewrite (H2 a), (H2 b); tauto.
Qed.

Lemma fdec (a b : list byte) : {a = b} + {a <> b}.
Proof. apply list_eq_dec, ascii_dec. Qed.

Lemma has_alive_pos vs k : NoDup (map vkind vs) -> (0 < rc k vs)%N -> has_alive is_alive vs = true.
Proof.
  intros HN H. apply has_alive_kinds. intros E. apply (alive_kinds_rc vs k HN) in H. rewrite E in H. exact H.
Qed.

Lemma kinds_In_snoc h o f k :
  (exists o', In o' h /\ op_field o' = f /\ op_kind o' = k) ->
  exists o', In o' (h ++ [o]) /\ op_field o' = f /\ op_kind o' = k.
Proof. intros [o' [H1 H2]]. exists o'. rewrite in_app_iff. tauto. Qed.

(** One append. *)
Lemma inv_append s h f t s1 x : Inv s h -> append s f t = (s1, x) -> x <> Thrown ->
  (N.of_nat (length (h ++ [Append f t])) < U64)%N -> Inv s1 (h ++ [Append f t]).
Proof.
  intros Hi Ha Hx Hlen0. assert (Hlen : (N.of_nat (length h) + 1 < U64)%N) by (rewrite app_length in Hlen0; cbn [length] in Hlen0; lia).
  clear Hlen0. destruct Hi as [Hwf Hl Hn Hal Hc Hk]. unfold append in Ha. rewrite versions_lk in Ha.
  destruct (listed s f && has_type t (LK s f)) eqn:Hb.
  - apply andb_true_iff in Hb. destruct Hb as [Hb1 Hb2]. injection Ha as <- <-.
    pose proof (proj1 (Hl f) Hb1) as Hne.
    destruct (update_spec char_ltb char_irr char_trans char_tot (fields s) f (on_first t add_ref) Hwf Hne
                (length_on_first t add_ref)) as [U1 [_ [U3 U4]]].
    assert (Hg : forall e : ty * N, fst (add_ref e) = fst e) by reflexivity.
    constructor; cbn [fields existing].
    + exact U1.
    + intros g. unfold listed. cbn [existing]. fold (listed s g). rewrite Hl.
      destruct (fdec g f) as [->|Hgf]; [|rewrite (U4 _ Hgf); reflexivity]. rewrite U3. split; intros H0; [|exact Hne].
      intros E. apply (f_equal (@length _)) in E. rewrite length_on_first in E. destruct (LK s f); [contradiction|discriminate].
    + intros g. destruct (fdec g f) as [->|Hgf]; [rewrite U3, kinds_on_first by exact Hg|rewrite (U4 _ Hgf)]; apply Hn.
    + intros g. destruct (fdec g f) as [->|Hgf]; [|rewrite (U4 _ Hgf); apply Hal]. intros _. rewrite U3.
      apply (has_alive_pos _ (ty_kind t)); [rewrite kinds_on_first by exact Hg; apply Hn|].
      rewrite (rc_on_first_same t add_ref _ (fun r => (r + 1) mod U64)%N); [|split; reflexivity|exact Hb2].
      rewrite Hc. pose proof (count_bound h f (ty_kind t)).
      rewrite N.mod_small by lia. lia.
    + intros g k. rewrite count_snoc. cbn [tally]. destruct (list_eq_dec ascii_dec f g) as [<-|Hgf].
      * rewrite U3. destruct (N.eqb_spec (ty_kind t) k) as [<-|Hkk].
        -- rewrite (rc_on_first_same t add_ref _ (fun r => (r + 1) mod U64)%N); [|split; reflexivity|exact Hb2].
           rewrite Hc. pose proof (count_bound h f (ty_kind t)).
           apply N.mod_small. lia.
        -- rewrite rc_on_first_other; [apply Hc|exact Hg|congruence].
      * rewrite U4 by congruence. apply Hc.
    + intros g k HI. apply kinds_In_snoc. destruct (fdec g f) as [->|Hgf].
      * rewrite U3, kinds_on_first in HI by exact Hg. apply Hk, HI.
      * rewrite (U4 _ Hgf) in HI. apply Hk, HI.
  - assert (Hnt : has_type t (LK s f) = false).
    { apply andb_false_iff in Hb. destruct Hb as [Hb|Hb]; [|exact Hb].
      destruct (LK s f) eqn:E; [reflexivity|]. exfalso. rewrite (proj2 (Hl f)) in Hb; [discriminate|]. rewrite E. discriminate. }
    pose proof (insert_spec char_ltb is_alive char_irr char_trans char_tot (fields s) f (t, 0%N) Hwf) as HI0.
    destruct (insert char_ltb (fields s) f (t, 0%N)) as [fs ok] eqn:Hins. cbn [fst] in HI0.
    destruct HI0 as [W1 [_ [W2 W3]]].
    destruct ok; [|injection Ha as <- <-; contradiction].
    assert (Hne : lk char_ltb fs f <> []) by (rewrite W2; destruct (LK s f); discriminate).
    destruct (update_spec char_ltb char_irr char_trans char_tot fs f (on_last add_ref) W1 Hne
                (length_on_last add_ref)) as [U1 [_ [U3 U4]]].
    rewrite W2, on_last_app in U3. change (add_ref (t, 0%N)) with (t, 1%N) in U3.
    injection Ha as <- <-.
    assert (Hkn : ~ In (ty_kind t) (map vkind (LK s f))).
    { intros H0. apply has_type_In in H0. congruence. }
    assert (Hnd : NoDup (map vkind (LK s f ++ [(t_cur (fields s), (t, 1%N))]))).
    { rewrite map_app. apply NoDup_app_one; [apply Hn|exact Hkn]. }
    constructor; cbn [fields existing].
    + exact U1.
    + intros g. destruct (fdec g f) as [->|Hgf].
      * rewrite U3, listed_new, beqb_refl. split; [intros _; destruct (LK s f); discriminate|reflexivity].
      * rewrite (U4 _ Hgf), (W3 _ Hgf), <- Hl, listed_new.
        destruct (beqb_spec g f); [contradiction|reflexivity].
    + intros g. destruct (fdec g f) as [->|Hgf]; [rewrite U3; exact Hnd|]. rewrite (U4 _ Hgf), (W3 _ Hgf). apply Hn.
    + intros g. destruct (fdec g f) as [->|Hgf]; [|rewrite (U4 _ Hgf), (W3 _ Hgf); apply Hal]. intros _. rewrite U3.
      apply (has_alive_pos _ (ty_kind t)); [exact Hnd|]. rewrite rc_app by exact Hnt. rewrite N.eqb_refl. lia.
    + intros g k. rewrite count_snoc. cbn [tally]. destruct (list_eq_dec ascii_dec f g) as [<-|Hgf].
      * rewrite U3, rc_app by exact Hnt. destruct (N.eqb_spec (ty_kind t) k) as [<-|Hkk]; [|apply Hc].
        rewrite <- Hc, rc_absent by exact Hkn. reflexivity.
      * rewrite U4, W3 by congruence. apply Hc.
    + intros g k HI. destruct (fdec g f) as [->|Hgf].
      * rewrite U3, map_app, in_app_iff in HI. destruct HI as [HI|[<-|[]]].
        -- apply kinds_In_snoc, Hk, HI.
        -- exists (Append f t). rewrite in_app_iff. cbn. auto.
      * rewrite (U4 _ Hgf), (W3 _ Hgf) in HI. apply kinds_In_snoc, Hk, HI.
Qed.

(** One drop. *)
Lemma inv_drop s h f t n s1 x : Inv s h -> drop_n s f t n = (s1, x) ->
  plain_prefixes (h ++ [Drop f t n]) -> Inv s1 (h ++ [Drop f t n]).
Proof.
  intros Hi Hd Hpl. destruct Hi as [Hwf Hl Hn Hal Hc Hk]. unfold drop_n in Hd. rewrite versions_lk in Hd.
  assert (Hg : forall e : ty * N, fst (release_n n e) = fst e) by reflexivity.
  destruct (listed s f && has_type t (LK s f)) eqn:Hb.
  - apply andb_true_iff in Hb. destruct Hb as [Hb1 Hb2].
    pose proof (proj1 (Hl f) Hb1) as Hne.
    destruct (update_spec char_ltb char_irr char_trans char_tot (fields s) f (on_first t (release_n n)) Hwf Hne
                (length_on_first t (release_n n))) as [U1 [_ [U3 U4]]].
    set (fs := update char_ltb (fields s) f (on_first t (release_n n))) in *.
    rewrite versions_lk in Hd. cbn [fields existing] in Hd.
    assert (Hne' : lk char_ltb fs f <> []).
    { rewrite U3. intros E. apply (f_equal (@length _)) in E. rewrite length_on_first in E.
      destruct (LK s f); [contradiction|discriminate]. }
    assert (Hnd : NoDup (map vkind (lk char_ltb fs f))) by (rewrite U3, kinds_on_first by exact Hg; apply Hn).
    assert (Hcnt : forall k, rc k (lk char_ltb fs f) = count (h ++ [Drop f t n]) f k).
    { intros k. rewrite count_snoc. cbn [tally]. destruct (list_eq_dec ascii_dec f f) as [_|]; [|contradiction].
      rewrite U3. destruct (N.eqb_spec (ty_kind t) k) as [<-|Hkk].
      - rewrite (rc_on_first_same t (release_n n) _ (fun r => N.max r n - n)%N); [|split; reflexivity|exact Hb2].
        rewrite Hc. lia.
      - rewrite rc_on_first_other; [apply Hc|exact Hg|congruence]. }
    assert (Hoth : forall g k, g <> f -> count (h ++ [Drop f t n]) g k = count h g k).
    { intros g k Hgf. rewrite count_snoc. cbn [tally]. destruct (list_eq_dec ascii_dec f g); [congruence|reflexivity]. }
    assert (Hkf : forall k, In k (map vkind (lk char_ltb fs f)) -> exists o, In o h /\ op_field o = f /\ op_kind o = k).
    { intros k HI. rewrite U3, kinds_on_first in HI by exact Hg. apply Hk, HI. }
    destruct (has_alive is_alive (lk char_ltb fs f)) eqn:Ha.
    + injection Hd as <- <-. constructor; cbn [fields existing].
      * exact U1.
      * intros g. unfold listed. cbn [existing]. fold (listed s g). rewrite Hl.
        destruct (fdec g f) as [->|Hgf]; [|rewrite (U4 _ Hgf); reflexivity]. split; intros; assumption.
      * intros g. destruct (fdec g f) as [->|Hgf]; [exact Hnd|rewrite (U4 _ Hgf); apply Hn].
      * intros g. destruct (fdec g f) as [->|Hgf]; [intros; exact Ha|rewrite (U4 _ Hgf); apply Hal].
      * intros g k. destruct (fdec g f) as [->|Hgf]; [apply Hcnt|]. rewrite (U4 _ Hgf), (Hoth _ _ Hgf). apply Hc.
      * intros g k HI. apply kinds_In_snoc. destruct (fdec g f) as [->|Hgf]; [apply Hkf, HI|].
        rewrite (U4 _ Hgf) in HI. apply Hk, HI.
    + pose proof (erase_spec char_ltb is_alive char_irr char_trans char_tot fs f U1 Hne') as HE.
      destruct (erase char_ltb is_alive fs f) as [fs' freed]. cbn [fst snd] in HE.
      destruct HE as [E1 [_ [E2 [E3 E4]]]]. injection Hd as <- <-.
      assert (Hgone : lk char_ltb fs' f = []).
      { destruct (longer_dec char_ltb char_irr char_tot fs f U1) as [HL|HL];
          [|apply E4; [exact HL|apply dead_sub, Ha] ].
        rewrite (proj1 (E3 HL)). destruct HL as [a [tl HL]].
        assert (Hff : f ++ a :: tl <> f).
        { intros E. apply (f_equal (@length _)) in E. rewrite app_length in E. cbn in E. lia. }
        rewrite (U4 _ Hff) in HL.
        assert (Hp : exists p, In p h /\ op_field p = f ++ a :: tl).
        { destruct (LK s (f ++ a :: tl)) as [|v r] eqn:Ev; [contradiction|].
          destruct (Hk (f ++ a :: tl) (vkind v)) as [p [P1 [P2 _]]]; [rewrite Ev; left; reflexivity|]. exists p. auto. }
        destruct Hp as [p [P1 P2]].
        assert (Hone : length (map vkind (lk char_ltb fs f)) <= 1).
        { apply (NoDup_const _ (ty_kind t) Hnd). intros k HI. destruct (Hkf k HI) as [o [O1 [O2 O3]]]. subst k.
          specialize (Hpl (Drop f t n) p). cbn in Hpl. apply Hpl.
          - apply in_app_iff. right. left. reflexivity.
          - apply in_app_iff. left. exact P1.
          - exists a, tl. exact P2.
          - apply in_app_iff. left. exact O1.
          - exact O2. }
        rewrite map_length in Hone. destruct (lk char_ltb fs f) as [|v [|w r]]; cbn in *; [reflexivity|reflexivity|lia]. }
      constructor; cbn [fields existing].
      * exact E1.
      * intros g. unfold listed. cbn [existing]. rewrite existsb_filter. fold (listed s g).
        destruct (beqb_spec f g) as [<-|Hgf]; cbn.
        -- rewrite Hgone. split; [discriminate|contradiction].
        -- rewrite Hl, E2, U4 by congruence. reflexivity.
      * intros g. destruct (fdec g f) as [->|Hgf]; [rewrite Hgone; constructor|]. rewrite (E2 _ Hgf), (U4 _ Hgf). apply Hn.
      * intros g. destruct (fdec g f) as [->|Hgf]; [rewrite Hgone; contradiction|]. rewrite (E2 _ Hgf), (U4 _ Hgf). apply Hal.
      * intros g k. destruct (fdec g f) as [->|Hgf].
        -- rewrite Hgone, <- Hcnt. cbn. symmetry. apply all_dead; assumption.
        -- rewrite (E2 _ Hgf), (U4 _ Hgf), (Hoth _ _ Hgf). apply Hc.
      * intros g k HI. apply kinds_In_snoc. destruct (fdec g f) as [->|Hgf]; [rewrite Hgone in HI; contradiction|].
        rewrite (E2 _ Hgf), (U4 _ Hgf) in HI. apply Hk, HI.
  - injection Hd as <- <-.
    assert (Hnt : has_type t (LK s f) = false).
    { apply andb_false_iff in Hb. destruct Hb as [Hb|Hb]; [|exact Hb].
      destruct (LK s f) eqn:E; [reflexivity|]. exfalso. rewrite (proj2 (Hl f)) in Hb; [discriminate|]. rewrite E. discriminate. }
    constructor; try assumption.
    + intros g k. rewrite count_snoc. cbn [tally]. destruct (list_eq_dec ascii_dec f g) as [<-|]; [|apply Hc].
      destruct (N.eqb_spec (ty_kind t) k) as [<-|]; [|apply Hc]. rewrite <- Hc, rc_absent; [reflexivity|].
      intros H0. apply has_type_In in H0. congruence.
    + intros g k HI. apply kinds_In_snoc, Hk, HI.
Qed.

Lemma plain_app a b : plain_prefixes (a ++ b) -> plain_prefixes a.
Proof.
  intros H o p Ho Hp HL o' Ho' E. apply (H o p); try (apply in_app_iff; left); assumption.
Qed.

Lemma inv_run h : forall s d s' outs, Inv s d -> run s h = (s', outs) -> ~ In Thrown outs ->
  plain_prefixes (d ++ h) -> (N.of_nat (length (d ++ h)) < U64)%N -> Inv s' (d ++ h).
Proof.
  induction h as [|o h IH]; intros s d s' outs Hi Hr Ho Hp Hlen; cbn in Hr.
  - injection Hr as <- <-. rewrite app_nil_r. exact Hi.
  - destruct (step s o) as [s1 x] eqn:Hs. destruct (run s1 h) as [s2 xs] eqn:Hr2. injection Hr as <- <-.
    change (d ++ o :: h) with (d ++ [o] ++ h) in *. rewrite app_assoc in *.
    apply (IH s1 (d ++ [o]) s2 xs); [|exact Hr2|intros H; apply Ho; right; exact H|exact Hp|exact Hlen].
    destruct o as [f t|f t n]; cbn in Hs.
    + apply (inv_append s d f t s1 x Hi Hs).
      * intros ->. apply Ho. left. reflexivity.
      * rewrite app_length in Hlen. lia.
    + apply (inv_drop s d f t n s1 x Hi Hs). apply (plain_app _ h Hp).
Qed.

Lemma inv_reach h s outs : run empty_schema h = (s, outs) -> ~ In Thrown outs -> plain_prefixes h ->
  (N.of_nat (length h) < U64)%N -> Inv s h.
Proof. intros Hr Ho Hp Hlen. apply (inv_run h empty_schema [] s outs inv_empty Hr Ho Hp Hlen). Qed.

Lemma find_versions_kinds s f :
  find_field_versions s f = (if listed s f then Ok (map (fun v => fst (snd v)) (filter (fun v => is_alive (snd v)) (LK s f))) else Err UB).
Proof. unfold find_field_versions. rewrite versions_lk. reflexivity. Qed.

Lemma inv_lists s h f : Inv s h ->
  ((forall k, count h f k = 0%N) -> find_field_versions s f = Err UB) /\
  ((exists k, (0 < count h f k)%N) -> exists l, find_field_versions s f = Ok l /\
     NoDup (map ty_kind l) /\ forall k, In k (map ty_kind l) <-> (0 < count h f k)%N).
Proof.
  intros Hi. destruct Hi as [Hwf Hl Hn Hal Hc Hk]. rewrite find_versions_kinds. split.
  - intros H. destruct (listed s f) eqn:E; [|reflexivity]. exfalso. apply Hl in E. specialize (Hal f E).
    apply has_alive_kinds in Hal. destruct (alive_kinds (LK s f)) as [|k r] eqn:Ek; [contradiction|].
    assert (HI : In k (alive_kinds (LK s f))) by (rewrite Ek; left; reflexivity).
    apply alive_kinds_rc in HI; [|apply Hn]. rewrite Hc, H in HI. lia.
  - intros [k Hkk]. destruct (listed s f) eqn:E.
    + eexists. split; [reflexivity|]. rewrite map_map. fold (alive_kinds (LK s f)).
      change (map (fun x : N * (ty * N) => ty_kind (fst (snd x))) (filter (fun v => is_alive (snd v)) (LK s f))) with (alive_kinds (LK s f)).
      split; [apply alive_kinds_NoDup, Hn|]. intros k'. rewrite alive_kinds_rc by apply Hn. rewrite Hc. reflexivity.
    + exfalso. rewrite <- Hc in Hkk. assert (Hx : LK s f = []).
      { destruct (LK s f) eqn:Ex; [reflexivity|]. rewrite (proj2 (Hl f)) in E; [discriminate|rewrite Ex; discriminate]. }
      rewrite Hx in Hkk. cbn in Hkk. lia.
Qed.

(** Saturating counts are plain differences when drops never exceed appends. *)
Lemma appended_snoc h o f k : appended (h ++ [o]) f k =
  match o with
  | Append g t => if list_eq_dec ascii_dec g f then if (ty_kind t =? k)%N then (appended h f k + 1)%N else appended h f k else appended h f k
  | Drop _ _ _ => appended h f k end.
Proof. unfold appended. rewrite fold_left_app. destruct o; reflexivity. Qed.
Lemma dropped_snoc h o f k : dropped (h ++ [o]) f k =
  match o with
  | Drop g t n => if list_eq_dec ascii_dec g f then if (ty_kind t =? k)%N then (dropped h f k + n)%N else dropped h f k else dropped h f k
  | Append _ _ => dropped h f k end.
Proof. unfold dropped. rewrite fold_left_app. destruct o; reflexivity. Qed.

Lemma balanced_count h : balanced h -> forall f k, count h f k = (appended h f k - dropped h f k)%N.
Proof.
  induction h as [|o h IH] using rev_ind; [reflexivity|]. intros Hb f k.
  assert (Hb' : balanced h).
  { intros n f' k'. destruct (Nat.le_gt_cases n (length h)) as [L|L].
    - specialize (Hb n f' k'). rewrite firstn_app in Hb. replace (n - length h) with 0 in Hb by lia.
      cbn in Hb. rewrite app_nil_r in Hb. exact Hb.
    - rewrite firstn_all2 by lia. specialize (Hb (length h) f' k'). rewrite firstn_app, Nat.sub_diag, firstn_all in Hb.
      cbn in Hb. rewrite app_nil_r in Hb. exact Hb. }
  specialize (IH Hb' f k). pose proof (Hb' (length h) f k) as HA. rewrite firstn_all in HA.
  pose proof (Hb (length (h ++ [o])) f k) as HB. rewrite firstn_all in HB.
  rewrite count_snoc, IH, appended_snoc, dropped_snoc in *.
  destruct o as [g t|g t n]; cbn [tally]; destruct (list_eq_dec ascii_dec g f); try reflexivity;
    destruct (ty_kind t =? k)%N; try reflexivity; lia.
Qed.

(** ** When a call completes *)
Lemma inv_field s h f : Inv s h -> (LK s f <> [] <-> is_field h f).
Proof.
  intros Hi. destruct Hi as [Hwf Hl Hn Hal Hc Hk]. unfold is_field. split.
  - intros H. specialize (Hal f H). apply has_alive_kinds in Hal.
    destruct (alive_kinds (LK s f)) as [|k r] eqn:Ek; [contradiction|]. exists k.
    rewrite <- Hc. apply alive_kinds_rc; [apply Hn|]. rewrite Ek. left. reflexivity.
  - intros [k H] E. rewrite <- Hc, E in H. cbn in H. lia.
Qed.

Lemma append_completes s h f t : Inv s h ->
  (snd (append s f t) = Done <->
   is_field h f \/ f = [] \/
   exists q c, f = q ++ [c] /\ first_is_field (fun g => is_field h g \/ g = f) q).
Proof.
  intros Hi. pose proof (inv_field s h) as HF. pose proof Hi as Hi0. destruct Hi as [Hwf Hl Hn Hal Hc Hk].
  unfold append. rewrite versions_lk.
  destruct (listed s f && has_type t (LK s f)) eqn:Hb.
  - split; [|reflexivity]. intros _. left. apply (HF f Hi0). apply andb_true_iff in Hb. apply Hl. apply Hb.
  - pose proof (insert_spec char_ltb is_alive char_irr char_trans char_tot (fields s) f (t, 0%N) Hwf) as HI0.
    pose proof (insert_ok char_ltb is_alive char_irr char_trans char_tot (fields s) f (t, 0%N) Hwf) as HK0.
    destruct (insert char_ltb (fields s) f (t, 0%N)) as [fs ok] eqn:Hins. cbn [fst snd] in HI0, HK0.
    destruct HI0 as [W1 [_ [W2 W3]]].
    assert (HN : forall g, lk char_ltb fs g <> [] <-> is_field h g \/ g = f).
    { intros g. destruct (fdec g f) as [->|Hgf].
      - rewrite W2. split; [intros _; right; reflexivity|]. intros _. destruct (LK s f); discriminate.
      - rewrite (W3 _ Hgf), (HF g Hi0). tauto. }
    assert (HS : smallest_ok char_ltb (lk char_ltb fs) f <->
                 f = [] \/ exists q c, f = q ++ [c] /\ first_is_field (fun g => is_field h g \/ g = f) q).
    { unfold smallest_ok. destruct (rev f) as [|c rq] eqn:Hr.
      - apply (f_equal (@rev _)) in Hr. rewrite rev_involutive in Hr. cbn in Hr. subst f. tauto.
      - apply (f_equal (@rev _)) in Hr. rewrite rev_involutive in Hr. cbn in Hr. split.
        + intros [e0 [H1 H2]]. right. exists (rev rq), c. split; [exact Hr|]. exists e0. split; [apply HN, H1|].
          intros d l Hd. apply (H2 d l). apply HN, Hd.
        + intros [H|[q [c' [H [e0 [H1 H2]]]]]]; [subst f; destruct (rev rq); discriminate|].
          rewrite Hr in H. apply app_inj_tail in H. destruct H as [Hq _]. subst q.
          exists e0. split; [apply HN, H1|]. intros d l Hd. apply (H2 d l). apply HN, Hd. }
    destruct ok; cbn [snd].
    + split; [|reflexivity]. intros _. destruct (proj1 HK0 eq_refl) as [H|H]; [left; apply (HF f Hi0), H|right; apply HS, H].
    + split; [discriminate|]. intros H. exfalso. assert (false = true); [|discriminate]. apply HK0.
      destruct H as [H|H]; [left; apply (HF f Hi0), H|right; apply HS, H].
Qed.

Lemma last_drop s h f t n : Inv s h -> plain_prefixes (h ++ [Drop f t n]) ->
  is_field h f -> ~ is_field (h ++ [Drop f t n]) f ->
  (snd (drop_n s f t n) = Freed <-> ~ exists g, longer f g /\ is_field h g).
Proof.
  intros Hi Hpl Hf Hnf. pose proof Hi as Hi0. destruct (drop_n s f t n) as [s1 x] eqn:Hd.
  pose proof (inv_drop s h f t n s1 x Hi Hd Hpl) as Hi1.
  pose proof (inv_field s h) as HF. pose proof (inv_field s1 (h ++ [Drop f t n]) f Hi1) as HF1.
  destruct Hi as [Hwf Hl Hn Hal Hc Hk]. cbn [snd]. unfold drop_n in Hd. rewrite versions_lk in Hd.
  assert (Hne : LK s f <> []) by (apply (HF f Hi0), Hf).
  destruct (listed s f && has_type t (LK s f)) eqn:Hb.
  2: { injection Hd as <- <-. exfalso. apply Hnf, HF1, Hne. }
  destruct (update_spec char_ltb char_irr char_trans char_tot (fields s) f (on_first t (release_n n)) Hwf Hne
              (length_on_first t (release_n n))) as [U1 [_ [U3 U4]]].
  set (fs := update char_ltb (fields s) f (on_first t (release_n n))) in *.
  rewrite versions_lk in Hd. cbn [fields existing] in Hd.
  assert (Hne' : lk char_ltb fs f <> []).
  { rewrite U3. intros E. apply (f_equal (@length _)) in E. rewrite length_on_first in E.
    destruct (LK s f); [contradiction|discriminate]. }
  destruct (has_alive is_alive (lk char_ltb fs f)) eqn:Ha.
  { injection Hd as <- <-. exfalso. apply Hnf, HF1. exact Hne'. }
  pose proof (erase_spec char_ltb is_alive char_irr char_trans char_tot fs f U1 Hne') as HE.
  destruct (erase char_ltb is_alive fs f) as [fs' freed]. cbn [fst snd] in HE.
  destruct HE as [E1 [_ [E2 [E3 E4]]]]. injection Hd as <- <-.
  assert (HL : has_longer char_ltb fs f <-> exists g, longer f g /\ is_field h g).
  { assert (Hff : forall a l, f ++ a :: l <> f).
    { intros a l E. apply (f_equal (@length _)) in E. rewrite app_length in E. cbn in E. lia. }
    split.
    - intros [a [l H]]. exists (f ++ a :: l). split; [exists a, l; reflexivity|]. apply (HF _ Hi0).
      rewrite <- (U4 _ (Hff a l)). exact H.
    - intros [g [[a [l ->]] H]]. exists a, l. rewrite (U4 _ (Hff a l)). apply (HF _ Hi0), H. }
  rewrite <- HL. destruct (longer_dec char_ltb char_irr char_tot fs f U1) as [H|H].
  - destruct (E3 H) as [_ ->]. split; [discriminate|contradiction].
  - destruct (E4 H (dead_sub _ Ha)) as [_ ->]. split; [intros _; exact H|reflexivity].
Qed.

Lemma struct_sound s h f t : Inv s h -> In (f, t) (latest_types_struct s) -> (0 < count h f (ty_kind t))%N.
Proof.
  intros Hi H. destruct Hi as [Hwf Hl Hn Hal Hc Hk]. unfold latest_types_struct in H.
  apply in_flat_map in H. destruct H as [g [_ H]]. rewrite versions_lk in H.
  destruct (rev (LK s g)) as [|[i e] r] eqn:Hr; [contradiction|].
  destruct (is_alive e) eqn:Ha; [|contradiction]. destruct H as [[= <- <-]|[]].
  rewrite <- Hc. apply alive_kinds_rc; [apply Hn|]. unfold alive_kinds. apply in_map_iff.
  exists (i, e). split; [reflexivity|]. apply filter_In. split; [|exact Ha].
  apply in_rev. rewrite Hr. left. reflexivity.
Qed.
