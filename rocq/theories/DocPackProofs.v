(** Proofs about documents in the storage format. *)
From Verif Require Import Bytes Outcome MsgpackModel MsgpackProofs TapeModel TapeSpec TapeProofs DocPackModel DocPackSpec.
Local Open Scope N_scope.

Fixpoint content_induction (P : content -> Prop)
  (Hs : forall s, P (CScalar s)) (Ho : forall gs, Forall (fun kv => P (snd kv)) gs -> P (CObj gs)) (Ha : forall vs, Forall P vs -> P (CArr vs)) (v : content) : P v :=
  match v with
  | CScalar s => Hs s
  | CObj gs => Ho gs ((fix go l : Forall (fun kv => P (snd kv)) l := match l with [] => Forall_nil _ | kv :: r => Forall_cons kv (content_induction P Hs Ho Ha (snd kv)) (go r) end) gs)
  | CArr vs => Ha vs ((fix go l : Forall P l := match l with [] => Forall_nil _ | x :: r => Forall_cons x (content_induction P Hs Ho Ha x) (go r) end) vs)
  end.

(** The MessagePack value of a content. *)
Definition int_mp (z : Z) : mp := if (0 <=? z)%Z then MUint (Z.to_N z) else MNeg (Z.to_N (- z - 1)).
Definition scalar_mp (s : scalar) : mp :=
  match s with SNull => MNil | SBool b => MBool b | SInt _ z => int_mp z | SFloat n => MF32 n | SDouble n => MF64 n | SString s => MStr s end.
Fixpoint to_mp (v : content) : mp :=
  match v with
  | CScalar s => scalar_mp s
  | CObj gs => MMap (map (fun kv => (MStr (fst kv), to_mp (snd kv))) gs)
  | CArr vs => MArr (map to_mp vs)
  end.

Lemma fits_bound k z : k <> I128 -> (fits k z = true -> - 2 ^ 63 <= z < 2 ^ 64)%Z.
Proof. intros K F. apply fits_iff in F. destruct k; try congruence; cbn in F; lia. Qed.
Lemma int_wf k z : k <> I128 -> fits k z = true -> wf (int_mp z) = true.
Proof. intros K F. apply fits_bound in F; [|exact K]. unfold int_mp. destruct (Z.leb_spec 0 z); cbn; lia. Qed.

Lemma reads_scalar d i s : reads d i s -> match s with SInt k z => fits k z = true | _ => True end.
Proof. destruct s; auto. intros R. apply (reads_next d i k z R). Qed.

Section Packing.
  Variable pf : doc -> nat -> res (list byte).

  Lemma pack_scalar d i s : reads d i s -> storable (CScalar s) = true -> pack_element pf d i = Ok (enc (scalar_mp s)).
  Proof.
    intros R St. pose proof R as (T & Nl & G). unfold pack_element. rewrite T. cbn [rbind].
    destruct s as [|b|k z|n|n|s]; cbn [type_code] in *; try discriminate St.
    - reflexivity.
    - unfold value. rewrite G. reflexivity.
    - assert (K : k <> I128) by (intros ->; discriminate St).
      pose proof (reads_scalar d i _ R) as F. cbn in F. pose proof F as B. apply fits_iff in B. cbn [scalar_mp enc]. unfold int_mp, pack_int.
      assert (V : forall to, (to = U64 \/ to = I64) -> signed to = signed k -> get_int to d i = Ok (Val z)).
      { intros to Ht Sg. rewrite (typed_read d i k z to R).
        - assert (fits to z = true) as ->; [|reflexivity]. apply fits_iff. destruct Ht as [ -> | -> ]; destruct k; try discriminate Sg; try congruence; cbn in *; lia.
        - unfold wraps, unsafe_pair. destruct Ht as [ -> | -> ]; destruct k; try discriminate Sg; try congruence; reflexivity. }
      destruct k; try congruence; cbn -[get_int enc_uint enc_neg Z.to_N]; unfold value;
        rewrite ?(V U64 (or_introl eq_refl) eq_refl), ?(V I64 (or_intror eq_refl) eq_refl); cbn -[enc_uint enc_neg Z.to_N];
        try (destruct (Z.leb_spec 0 z) as [L|L]; [reflexivity|]; try reflexivity; cbn in B; lia).
    - unfold value. rewrite G. reflexivity.
  Qed.

  Lemma storable_wf d t v : holds d t v -> storable v = true -> wf (to_mp v) = true.
  Proof.
    revert t. induction v as [s|gs IH|vs IH] using content_induction; intros t H St.
    - inversion H as [i s' Rs| |]; subst. pose proof (reads_scalar d i s Rs) as F. clear H Rs. destruct s as [|b|k z|n|n|s]; cbn [to_mp scalar_mp wf storable] in *; try reflexivity; try discriminate; try exact St.
      apply (int_wf k); [intros ->; discriminate|exact F].
    - inversion H as [|fs gs' Fh|]; subst. cbn [storable] in St. apply andb_true_iff in St as [Sm Al]. cbn [to_mp wf].
      rewrite map_length. unfold small in Sm. rewrite Sm. cbn [andb]. clear Sm H. revert fs Fh. induction gs as [|[k v] gs IHg]; intros fs Fh; [reflexivity|].
      inversion Fh; subst. cbn in Al. apply andb_true_iff in Al as [A1 A2]. apply andb_true_iff in A1 as [A0 A1]. inversion IH as [|? ? I1 I2]; subst. cbn [fst snd] in I1.
      cbn [map forallb fst snd]. rewrite (I1 _ ltac:(eassumption) A1). cbn [wf]. unfold small in A0. rewrite A0. cbn. eapply IHg; eauto.
    - inversion H as [| |ts vs' Fh]; subst. cbn [storable] in St. apply andb_true_iff in St as [Sm Al]. cbn [to_mp wf].
      rewrite map_length. unfold small in Sm. rewrite Sm. cbn [andb]. clear Sm H. revert ts Fh. induction vs as [|v vs IHg]; intros ts Fh; [reflexivity|].
      inversion Fh; subst. cbn in Al. apply andb_true_iff in Al as [A1 A2]. inversion IH as [|? ? I1 I2]; subst. cbn [fst snd] in I1.
      cbn [map forallb]. rewrite (I1 _ ltac:(eassumption) A1). cbn. eapply IHg; eauto.
  Qed.

  Lemma fields_length d fs gs : fields_hold d fs gs -> length fs = length gs.
  Proof. revert gs. induction fs as [|f fs IH]; intros gs H; inversion H; subst; cbn; [reflexivity|f_equal; auto]. Qed.
  Lemma elements_length d fs gs : elements_hold d fs gs -> length fs = length gs.
  Proof. revert gs. induction fs as [|f fs IH]; intros gs H; inversion H; subst; cbn; [reflexivity|f_equal; auto]. Qed.

  Lemma pack_content d t v : holds d t v -> storable v = true -> pack_tree pf d t = Ok (enc (to_mp v)).
  Proof.
    revert t. induction v as [s|gs IH|vs IH] using content_induction; intros t H St.
    - inversion H; subst. cbn [pack_tree to_mp]. apply pack_scalar; assumption.
    - inversion H as [|fs gs' Fh|]; subst. cbn [storable] in St. apply andb_true_iff in St as [_ Al]. cbn [pack_tree to_mp enc].
      rewrite map_length, (fields_length d fs gs Fh).
      match goal with |- context [rbind ?X _] => assert (X = Ok (flat_map (fun kv => enc (fst kv) ++ enc (snd kv)) (map (fun kv => (MStr (fst kv), to_mp (snd kv))) gs))) as ->; [|reflexivity] end.
      clear H. revert fs Fh. induction gs as [|[k v] gs IHg]; intros fs Fh; inversion Fh; subst; [reflexivity|].
      cbn in Al. apply andb_true_iff in Al as [A1 A2]. apply andb_true_iff in A1 as [A0 A1]. inversion IH as [|? ? I1 I2]; subst. cbn [fst snd] in I1.
      rewrite (pack_scalar d i (SString k)) by assumption. cbn [rbind]. rewrite (I1 _ ltac:(eassumption) A1). cbn [rbind].
      rewrite (IHg I2 A2 fs0) by assumption. cbn [rbind map flat_map fst snd scalar_mp]. f_equal. rewrite <- app_assoc. reflexivity.
    - inversion H as [| |ts vs' Fh]; subst. cbn [storable] in St. apply andb_true_iff in St as [_ Al]. cbn [pack_tree to_mp enc].
      rewrite map_length, (elements_length d ts vs Fh).
      match goal with |- context [rbind ?X _] => assert (X = Ok (flat_map enc (map to_mp vs))) as ->; [|reflexivity] end.
      clear H. revert ts Fh. induction vs as [|v vs IHg]; intros ts Fh; inversion Fh; subst; [reflexivity|].
      cbn in Al. apply andb_true_iff in Al as [A1 A2]. inversion IH as [|? ? I1 I2]; subst. cbn [fst snd] in I1.
      rewrite (I1 _ ltac:(eassumption) A1). cbn [rbind]. rewrite (IHg I2 A2 ts0) by assumption. reflexivity.
  Qed.
End Packing.

Scheme holds_mind := Induction for holds Sort Prop
  with fields_mind := Induction for fields_hold Sort Prop
  with elements_mind := Induction for elements_hold Sort Prop.

Lemma holds_ext d e t v : ext d e -> holds d t v -> holds e t v.
Proof.
  intros X H. apply (holds_mind d (fun t v _ => holds e t v) (fun fs gs _ => fields_hold e fs gs) (fun ts vs _ => elements_hold e ts vs)); try exact H; intros; constructor; auto; eapply reads_ext; eauto.
Qed.
Lemma fields_ext d e fs gs : ext d e -> fields_hold d fs gs -> fields_hold e fs gs.
Proof. intros X. revert gs. induction fs as [|f fs IH]; intros gs H; inversion H; subst; constructor; auto; [eapply reads_ext|eapply holds_ext]; eauto. Qed.
Lemma elements_ext d e fs gs : ext d e -> elements_hold d fs gs -> elements_hold e fs gs.
Proof. intros X. revert gs. induction fs as [|f fs IH]; intros gs H; inversion H; subst; constructor; auto; eapply holds_ext; eauto. Qed.

Lemma be4_length n : length (be 4 n) = 4%nat. Proof. apply be_length. Qed.
Lemma string_room s : small s = true -> N.of_nat (length (string_bytes s)) = N.of_nat (length s) + 5.
Proof.
  unfold small. intros S. apply N.ltb_lt in S. unfold string_bytes. rewrite N.mod_small by exact S.
  rewrite !app_length, le4_length, Nat2N.id, firstn_all. cbn [length]. lia.
Qed.

Section Unpacking.
  Variable w : N -> N.
  Variable nf : bool.

  (** Room for the texts that are still to come. *)
  Definition room (d : doc) (n : N) : Prop := N.of_nat (length (sbuf d)) + n < 2 ^ 56.

  Lemma leaf_ok d0 i0 d s : reads d0 i0 s -> storable (CScalar s) = true -> room d (text_size (CScalar s)) ->
    let '(i, d') := leaf w (scalar_mp s) d in
    ext d d' /\ reads d' i (as64 s) /\ N.of_nat (length (sbuf d')) = N.of_nat (length (sbuf d)) + text_size (CScalar s).
  Proof.
    intros R St Rm. pose proof (reads_scalar d0 i0 s R) as F. unfold leaf.
    assert (E : primitive w (scalar_mp s) = Some (as64 s)).
    { destruct s as [|b|k z|n|n|s]; try discriminate St; try reflexivity. cbn. unfold int_mp. destruct (Z.leb_spec 0 z); cbn; do 2 f_equal; lia. }
    rewrite E. split; [apply build_ext|].
    assert (Sb : N.of_nat (length (sbuf (build 0 d (as64 s)))) = N.of_nat (length (sbuf d)) + text_size (CScalar s)).
    { destruct s as [|b|k z|n|n|s]; try discriminate St; cbn [as64 text_size]; try (cbn; lia).
      - destruct (0 <=? z)%Z; cbn; lia.
      - cbn [build sbuf]. rewrite app_length, Nat2N.inj_add, string_room by exact St. reflexivity. }
    split; [|exact Sb]. apply build_reads.
    - destruct s as [|b|k z|n|n|s]; try discriminate St; cbn; auto.
      + assert (K : k <> I128) by (intros ->; discriminate St). apply fits_bound in F; [|exact K]. destruct (Z.leb_spec 0 z); cbn; lia.
      + cbn in St. unfold small in St. lia.
    - destruct s as [|b|k z|n|n|s]; try discriminate St; cbn; auto. destruct (Z.leb_spec 0 z); cbn; auto. destruct k; cbn in St; lia.
    - unfold room in Rm. lia.
  Qed.

  Lemma unpack_content d0 v : forall t0 d, holds d0 t0 v -> storable v = true -> room d (text_size v) ->
    let '(t, d') := build_index w nf (to_mp v) d in
    ext d d' /\ holds d' t (all64 v) /\ N.of_nat (length (sbuf d')) = N.of_nat (length (sbuf d)) + text_size v.
  Proof.
    induction v as [s|gs IH|vs IH] using content_induction; intros t0 d H St Rm.
    - inversion H; subst. pose proof (leaf_ok d0 i d s ltac:(eassumption) St Rm) as L. cbn [to_mp all64].
      assert (E : build_index w nf (scalar_mp s) d = (let '(i, d') := leaf w (scalar_mp s) d in (TLeaf i, d'))).
      { destruct s as [| | |n|n|s]; try reflexivity. cbn. unfold int_mp. destruct (0 <=? z)%Z; reflexivity. }
      rewrite E. destruct (leaf w (scalar_mp s) d) as [i' d']. destruct L as (L1 & L2 & L3). split; [exact L1|]. split; [constructor; exact L2|exact L3].
    - inversion H as [|fs gs' Fh|]; subst. cbn [storable] in St. apply andb_true_iff in St as [_ Al]. cbn [to_mp build_index all64].
      match goal with |- context [(fix go (l : list (mp * mp)) (d : doc) {struct l} : list (nat * tree) * doc := _) _ _] =>
        set (go := (fix go (l : list (mp * mp)) (d : doc) {struct l} : list (nat * tree) * doc := _)) end.
      assert (Main : forall gs fs d, Forall (fun kv => forall t0 d, holds d0 t0 (snd kv) -> storable (snd kv) = true -> room d (text_size (snd kv)) ->
            let '(t, d') := build_index w nf (to_mp (snd kv)) d in
            ext d d' /\ holds d' t (all64 (snd kv)) /\ N.of_nat (length (sbuf d')) = N.of_nat (length (sbuf d)) + text_size (snd kv)) gs ->
          fields_hold d0 fs gs -> forallb (fun kv => small (fst kv) && storable (snd kv)) gs = true -> room d (text_size (CObj gs)) ->
          let '(fs', d') := go (map (fun kv => (MStr (fst kv), to_mp (snd kv))) gs) d in
          ext d d' /\ fields_hold d' fs' (map (fun kv => (fst kv, all64 (snd kv))) gs) /\ N.of_nat (length (sbuf d')) = N.of_nat (length (sbuf d)) + text_size (CObj gs)).
      { clear. induction gs as [|[k v] gs IHg]; intros fs d IH Fh Al Rm; [split; [apply ext_refl|]; split; [constructor|cbn; lia]|].
        inversion Fh; subst. inversion IH as [|? ? I1 I2]; subst. cbn [fst snd] in I1. cbn [forallb fst snd] in Al. apply andb_true_iff in Al as [A1 A2]. apply andb_true_iff in A1 as [A0 A1].
        cbn [map fst snd text_size fold_right] in *. unfold room in Rm. cbn [text_size fold_right fst snd] in Rm.
        set (rest := fold_right (fun (kv : list byte * content) n => N.of_nat (length (fst kv)) + 5 + text_size (snd kv) + n) 0 gs) in *.
        unfold go. fold go.
        assert (One : let '(i, t, d1) := (if nf then let '(i, e) := leaf w (MStr k) d in let '(t, e') := build_index w nf (to_mp v) e in (i, t, e')
                            else let '(t, e) := build_index w nf (to_mp v) d in let '(i, e') := leaf w (MStr k) e in (i, t, e')) in
            ext d d1 /\ reads d1 i (SString k) /\ holds d1 t (all64 v) /\ N.of_nat (length (sbuf d1)) = N.of_nat (length (sbuf d)) + (N.of_nat (length k) + 5) + text_size v).
        { destruct nf.
          - pose proof (leaf_ok d0 i d (SString k) ltac:(eassumption) A0) as L. destruct (leaf w (scalar_mp (SString k)) d) as [i' e] eqn:El.
            cbn [scalar_mp] in El. rewrite El. destruct L as (L1 & L2 & L3); [unfold room; cbn [text_size]; lia|]. cbn [as64 text_size] in *.
            pose proof (I1 t e ltac:(eassumption) A1) as B. destruct (build_index w true (to_mp v) e) as [t' e'].
            destruct B as (B1 & B2 & B3); [unfold room; lia|]. split; [eapply ext_trans; eassumption|]. split; [eapply reads_ext; eassumption|]. split; [exact B2|lia].
          - pose proof (I1 t d ltac:(eassumption) A1) as B. destruct (build_index w false (to_mp v) d) as [t' e].
            destruct B as (B1 & B2 & B3); [unfold room; lia|].
            pose proof (leaf_ok d0 i e (SString k) ltac:(eassumption) A0) as L. destruct (leaf w (scalar_mp (SString k)) e) as [i' e'] eqn:El.
            cbn [scalar_mp] in El. rewrite El. destruct L as (L1 & L2 & L3); [unfold room; cbn [text_size]; lia|]. cbn [as64 text_size] in *.
            split; [eapply ext_trans; eassumption|]. split; [exact L2|]. split; [eapply holds_ext; eassumption|lia]. }
        destruct (if nf then let '(i, e) := leaf w (MStr k) d in let '(t, e') := build_index w nf (to_mp v) e in (i, t, e')
                            else let '(t, e) := build_index w nf (to_mp v) d in let '(i, e') := leaf w (MStr k) e in (i, t, e')) as [[i' t'] d1].
        destruct One as (O1 & O2 & O3 & O4).
        specialize (IHg fs0 d1 I2 ltac:(eassumption) A2). destruct (go _ d1) as [fs' d2]. destruct IHg as (G1 & G2 & G3); [unfold room; cbn [text_size]; fold rest; lia|].
        split; [eapply ext_trans; eassumption|]. split; [constructor; [eapply reads_ext; eassumption|eapply holds_ext; eassumption|exact G2]|].
        cbn [text_size] in G3. fold rest in G3. lia. }
      specialize (Main gs fs d IH Fh Al Rm). destruct (go _ d) as [fs' d']. destruct Main as (M1 & M2 & M3). split; [exact M1|]. split; [constructor; exact M2|exact M3].
    - inversion H as [| |ts vs' Fh]; subst. cbn [storable] in St. apply andb_true_iff in St as [_ Al]. cbn [to_mp build_index all64].
      match goal with |- context [(fix go (l : list mp) (d : doc) {struct l} : list tree * doc := _) _ _] =>
        set (go := (fix go (l : list mp) (d : doc) {struct l} : list tree * doc := _)) end.
      assert (Main : forall vs ts d, Forall (fun v => forall t0 d, holds d0 t0 v -> storable v = true -> room d (text_size v) ->
            let '(t, d') := build_index w nf (to_mp v) d in
            ext d d' /\ holds d' t (all64 v) /\ N.of_nat (length (sbuf d')) = N.of_nat (length (sbuf d)) + text_size v) vs ->
          elements_hold d0 ts vs -> forallb storable vs = true -> room d (text_size (CArr vs)) ->
          let '(ts', d') := go (map to_mp vs) d in
          ext d d' /\ elements_hold d' ts' (map all64 vs) /\ N.of_nat (length (sbuf d')) = N.of_nat (length (sbuf d)) + text_size (CArr vs)).
      { clear. induction vs as [|v vs IHg]; intros ts d IH Fh Al Rm; [split; [apply ext_refl|]; split; [constructor|cbn; lia]|].
        inversion Fh; subst. inversion IH as [|? ? I1 I2]; subst. cbn [fst snd] in I1. cbn [forallb] in Al. apply andb_true_iff in Al as [A1 A2].
        cbn [map text_size fold_right] in *. unfold room in Rm. cbn [text_size fold_right] in Rm.
        set (rest := fold_right (fun (v : content) n => text_size v + n) 0 vs) in *.
        unfold go. fold go. pose proof (I1 t d ltac:(eassumption) A1) as B. destruct (build_index w nf (to_mp v) d) as [t' d1].
        destruct B as (B1 & B2 & B3); [unfold room; lia|].
        specialize (IHg ts0 d1 I2 ltac:(eassumption) A2). destruct (go _ d1) as [fs' d2]. destruct IHg as (G1 & G2 & G3); [unfold room; cbn [text_size]; fold rest; lia|].
        split; [eapply ext_trans; eassumption|]. split; [constructor; [eapply holds_ext; eassumption|exact G2]|].
        cbn [text_size] in G3. fold rest in G3. lia. }
      specialize (Main vs ts d IH Fh Al Rm). destruct (go _ d) as [fs' d']. destruct Main as (M1 & M2 & M3). split; [exact M1|]. split; [constructor; exact M2|exact M3].
  Qed.
End Unpacking.

Theorem pack_round_trip pf w nf d t gs rest : holds d t (CObj gs) -> storable (CObj gs) = true -> text_size (CObj gs) < 2 ^ 56 ->
  exists bytes m t' d', pack_tree pf d t = Ok bytes /\ unpack (bytes ++ rest) = Some (m, rest) /\
    to_document w nf m = Ok (t', d') /\ holds d' t' (all64 (CObj gs)).
Proof.
  intros H St Rm. exists (enc (to_mp (CObj gs))), (to_mp (CObj gs)).
  pose proof (unpack_content w nf d (CObj gs) t {| tape := []; sbuf := [] |} H St) as U. unfold to_document.
  destruct (build_index w nf (to_mp (CObj gs)) {| tape := []; sbuf := [] |}) as [t' d'] eqn:E. exists t', d'.
  split; [apply pack_content; assumption|]. split; [apply unpack_enc; eapply storable_wf; eassumption|].
  split; [reflexivity|]. apply U. unfold room. cbn [sbuf length]. lia.
Qed.
