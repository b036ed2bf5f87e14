(** Transactions on the metadata of tables: a transaction of its own. *)
From Verif Require Import Bytes Outcome ByteOrd OMap SDiffModel SDiffSpec SDiffProofs TrieModel CSchemaModel CatModel CatSpec CatProofs TxModel TxSpec TxProofs.

Lemma c36_tidy es s xs p n m os :
  run start es = Ok (s, xs) -> Forall smooth xs -> orderly astart es ->
  t_at (a_world (fst (arun astart es))) Regular p n = Some m ->
  sound (s_cols (m_schema m)) -> tidy (s_cols (m_schema m)) [] os = true -> os <> [] ->
  let i := length (s_open s) in
  exists s' ys m', run s (Begin p n :: map (fun o => Do i (Change o)) os ++ [Commit i]) = Ok (s', ys) /\
    Forall (fun y => y = RErr None) ys /\ get_table_schema (s_cat s') p n = Ok m' /\
    Forall2 same (s_cols (m_schema m')) (describe (map view (s_cols (m_schema m))) os) /\
    s_pk (m_schema m') = s_pk (m_schema m) /\ m_desc m' = m_desc m.
Proof.
  intros HR HX HO HT HS HY Hne i. destruct (run_rel es _ _ _ _ start_rel HR HX HO) as [[S1 _] _].
  set (w := a_world (fst (arun astart es))) in *.
  destruct (tidy_apply _ HS os (m_schema m) eq_refl HY) as [d [sc [HB [HA [H1 [H2 _]]]]]].
  set (b := Scope false false true p n None (new_tx None)).
  assert (HBg : step s (Begin p n) = Ok (State (s_cat s) (s_open s ++ [b]), RErr None)).
  { cbn. unfold begin. rewrite (R_texists _ _ _ _ _ S1). fold w. rewrite HT. reflexivity. }
  set (s1 := State (s_cat s) (s_open s ++ [b])).
  assert (Hb : nth_error (s_open s1) i = Some b).
  { cbn. rewrite nth_error_app2 by (unfold i; lia). unfold i. rewrite Nat.sub_diag. reflexivity. }
  destruct (do_all i os s1 b d Hb eq_refl eq_refl HB) as [ys [HD HN]].
  pose proof (R_info _ _ p S1) as HP. unfold t_at in HT. fold w in HT.
  destruct (w p) as [t|] eqn:Hw; [|discriminate]. destruct HP as [inf [HI [T1 [T2 T3]]]].
  assert (HM : mfind bcmp n (tables inf) = Some m) by (rewrite <- HT; apply (T3 Regular)).
  assert (HC : has_changes d = true) by (rewrite (build_changes _ _ HB); destruct os; [congruence|reflexivity]).
  set (m' := Meta sc (m_desc m)). destruct (R_commit _ _ _ _ _ _ S1 HI HM m') as [_ R2].
  set (c' := upd_info (s_cat s) p (fun i => set_map Regular (minsert bcmp n m' (tables i)) i)) in *.
  set (b1 := with_tx b (Tx Active (x_md (c_tx b)) d None (x_saves (c_tx b)))) in *.
  set (bf := Scope true false true p n None (Tx Committed (MDiff d None) no_diff None [])).
  assert (HCm : commit (s_cat s) b1 = Ok (c', bf, false)).
  { unfold commit, b1, tx_commit, ensure_active. cbn. unfold md_changes. cbn. rewrite HC. unfold apply_to. rewrite HI, HM.
    unfold md_apply, md_changes. cbn. rewrite HC. cbn. rewrite HA. reflexivity. }
  exists (State c' (set_nth i bf (s_open s1))), (RErr None :: ys ++ [RErr None]), m'.
  split.
  { cbn [run]. rewrite HBg. cbn [rbind]. fold s1. rewrite run_app, HD. cbn [rbind run step s_open s_cat].
    rewrite (nth_set_same _ _ _ _ Hb). change (s_cat s1) with (s_cat s). rewrite HCm. cbn [rbind]. rewrite set_set. reflexivity. }
  split; [constructor; [reflexivity|]; apply Forall_app; split; [exact HN|constructor; [reflexivity|constructor]]|].
  split; [|split; [exact H1|split; [exact H2|reflexivity]]].
  cbn [s_cat]. apply (R_schema _ _ _ _ _ R2). unfold t_at, t_set. rewrite Hw, path_eqb_refl. cbn. rewrite beqb_refl. reflexivity.
Qed.

(** The calls on open transactions, with those made before on the same one. *)
Fixpoint guards (s : astate) (es : list event) : list (list top * top) :=
  match es with
  | [] => []
  | e :: r =>
      match e with
      | Do i o => match nth_error (a_txs s) i with Some (Open _ _ os) => [(os, o)] | _ => [] end
      | _ => []
      end ++ guards (fst (astep s e)) r
  end.
Lemma guards_orderly es : forall s, Forall (fun g => orderly1 (fst g) (snd g)) (guards s es) -> orderly s es.
Proof.
  induction es as [|e es IH]; intros s H; [exact I|]. cbn [guards] in H. apply Forall_app in H. destruct H as [H1 H2].
  split; [|apply IH, H2]. destruct e as [| |i o| |]; try exact I. destruct (nth_error (a_txs s) i) as [[p n os|]|]; try exact I.
  inversion H1; subst. assumption.
Qed.
