(** What holds between two messages: the invariants of normal work and of a restart. *)
From Coq Require Import List NArith ZArith Bool Lia Permutation.
From Verif Require Import Bytes Outcome.
From Verif Require Import QueryModel QuerySpec QueryProofs CrashModel CrashSpec CrashProofs.
Import ListNotations.
Arguments effects : simpl never.
Arguments effs : simpl never.
Arguments eff : simpl never.

(** ** Statements that do not disturb each other *)
Definition compat (r r' : request) : Prop := forall c, on r c = true -> on r' c = true -> ddl r = false /\ ddl r' = false.
Lemma compat_sym r r' : compat r r' -> compat r' r.
Proof. intros H c A B. destruct (H c B A). auto. Qed.
Lemma apart_Forall l r : apart l r = true <-> Forall (compat r) l.
Proof.
  unfold apart, compat. rewrite Forall_forall. destruct (target r) as [c|] eqn:T.
  - rewrite forallb_forall. pose proof (on_target r c) as O. split.
    + intros H x I c' A B. apply (O c' T) in A. subst c'. specialize (H x I). rewrite B in H. cbn in H.
      apply andb_true_iff in H. rewrite !negb_true_iff in H. exact H.
    + intros H x I. destruct (on x c) eqn:B; [|reflexivity]. cbn. destruct (H x I c (proj1 (target_on _ _) T) B) as [-> ->]. reflexivity.
  - split; [|reflexivity]. intros _ x _ c A. rewrite on_none in A by exact T. discriminate.
Qed.
Notation pairs := (ForallOrdPairs compat).
Lemma all_apart_pairs l : all_apart l = true <-> pairs l.
Proof.
  induction l as [|r l IH]; cbn; [split; [constructor|reflexivity]|]. rewrite andb_true_iff, IH, apart_Forall. split.
  - intros [A B]. constructor; assumption.
  - intros H. inversion H; auto.
Qed.
Lemma pairs_perm l l' : Permutation l l' -> pairs l -> pairs l'.
Proof.
  induction 1 as [|x l l' P IH|x y l|l l' l'' P1 IH1 P2 IH2]; intros H; auto.
  - inversion H; subst. constructor; [eapply Permutation_Forall; eauto|auto].
  - inversion H as [|? ? A B]; subst. inversion B as [|? ? C D]; subst. inversion A as [|? ? E F]; subst.
    constructor; [constructor; [apply compat_sym, E|exact C]|]. constructor; [exact F|exact D].
Qed.
Lemma pairs_app a b : pairs (a ++ b) -> pairs a /\ pairs b /\ forall x y, In x a -> In y b -> compat x y.
Proof.
  induction a as [|r a IH]; cbn; intros H; [split; [constructor|]; split; [exact H|]; intros ? ? []|].
  inversion H as [|? ? A B]; subst. destruct (IH B) as (C & D & E). rewrite Forall_app in A. split; [constructor; tauto|].
  split; [exact D|]. intros x y [<-|I] J; [|auto]. destruct A as [_ A]. rewrite Forall_forall in A. auto.
Qed.
Lemma pairs_hd r l : pairs (r :: l) -> Forall (compat r) l /\ pairs l.
Proof. intros H. inversion H; auto. Qed.

(** Whether a collection exists is changed only by creating and dropping it. *)
Lemma effs_some c h : (forall r, In r h -> on r c = true -> ddl r = false) -> forall o, is_some (effs c h o) = is_some o.
Proof.
  induction h as [|r h IH]; intros H o; [reflexivity|]. change (effs c (r :: h) o) with (effs c h (eff c r o)).
  rewrite IH by (intros; apply H; [right|]; assumption). destruct (on r c) eqn:O.
  - apply eff_some_dml. apply H; [left; reflexivity|exact O].
  - rewrite eff_off by exact O. reflexivity.
Qed.
Lemma effs_none c h o : (forall r, In r h -> on r c = false) -> effs c h o = o.
Proof. intros H. apply effs_off. apply forallb_forall. intros r I. rewrite H by exact I. reflexivity. Qed.
Lemma effects_app h h' c : effects (h ++ h') c = effs c h' (effects h c).
Proof. apply effs_app. Qed.
Lemma effects_snoc h r c : effects (h ++ [r]) c = eff c r (effects h c).
Proof. apply effs_app. Qed.

(** ** Histories *)
Definition valid (h : list request) (r : request) : Prop :=
  statement_ok r = true /\
  match r with
  | CreateColl c => In (CreateDb (fst c)) h
  | Insert c _ | Delete c _ _ | Update c _ _ _ => effects h c <> None
  | _ => True
  end.
Inductive hist_ok : list request -> Prop :=
| ho_nil : hist_ok []
| ho_snoc : forall h r, hist_ok h -> valid h r -> hist_ok (h ++ [r]).
Lemma hist_db h c : hist_ok h -> effects h c <> None -> In (CreateDb (fst c)) h.
Proof.
  induction 1 as [|h r H IH V]; intros N; [destruct N; reflexivity|]. rewrite effects_snoc in N. apply in_or_app.
  destruct (on r c) eqn:O; [|rewrite eff_off in N by exact O; auto]. apply target_on in O.
  destruct V as [_ V]. destruct r; cbn in O; try discriminate; injection O as ->; left.
  - exact V.
  - unfold eff in N. cbn in N. rewrite ceqb_refl in N. congruence.
  - apply IH, V.
  - apply IH, V.
  - apply IH, V.
Qed.
Lemma hist_split h : hist_ok h -> forall a r b, h = a ++ r :: b -> hist_ok a /\ valid a r.
Proof.
  induction 1 as [|h r H IH V]; intros a x b E; [destruct a; discriminate|].
  destruct (exists_last (l := x :: b)) as (b' & y & L); [discriminate|]. rewrite L in E.
  rewrite app_assoc in E. apply app_inj_tail in E. destruct E as [E ->]. destruct b' as [|z b'].
  - cbn in L. injection L as <- ->. rewrite app_nil_r in E. subst. auto.
  - cbn in L. injection L as <- ->. eapply IH. exact E.
Qed.

(** The contents of the collection a statement is about. *)
Definition before (h : list request) (r : request) : option content := match target r with Some c => effects h c | None => None end.
Fixpoint chain (h : list request) (l : list (request * list dop)) : Prop :=
  match l with
  | [] => True
  | (r, ops) :: l' => valid h r /\ okops (before h r) r ops /\ chain (h ++ [r]) l'
  end.
Lemma chain_app a : forall h b, chain h (a ++ b) <-> chain h a /\ chain (h ++ map fst a) b.
Proof.
  induction a as [|[r ops] a IH]; intros h b; cbn; [rewrite app_nil_r; tauto|]. rewrite IH, <- app_assoc. cbn. tauto.
Qed.
Lemma chain_hist l : forall h, hist_ok h -> chain h l -> hist_ok (h ++ map fst l).
Proof.
  induction l as [|[r ops] l IH]; intros h H C; cbn; [rewrite app_nil_r; exact H|]. cbn in C. destruct C as (V & _ & C).
  specialize (IH (h ++ [r]) (ho_snoc _ _ H V) C). rewrite <- app_assoc in IH. exact IH.
Qed.

(** ** Memory *)
Definition mem_ok (m : option (list doc)) (o : option content) : Prop :=
  match m, o with
  | None, None => True
  | Some l, Some x => well_stored l /\ forall i, get l i = x i
  | _, _ => False
  end.
Lemma mem_ok_same m o : mem_ok m o -> same (option_map get m) o.
Proof. destruct m, o; cbn; tauto. Qed.
Lemma mem_ok_ext m o o' : same o o' -> mem_ok m o -> mem_ok m o'.
Proof. destruct m, o, o'; cbn; try tauto. intros S [W H]. split; [exact W|]. intros i. rewrite H. apply S. Qed.
Lemma mem_ok_some m o : mem_ok m o -> is_some m = is_some o.
Proof. destruct m, o; cbn; tauto. Qed.

(** ** Normal work *)
Inductive parts : list msg -> list request -> list (request * list dop * nat) -> list (request * list dop) -> Prop :=
| p_nil : parts [] [] [] []
| p_req : forall r m a b c, parts m a b c -> parts (Req r :: m) (r :: a) b c
| p_succ : forall r ops n m a b c, parts m a b c -> parts (Success r ops n :: m) a ((r, ops, n) :: b) c
| p_done : forall r ops m a b c, parts m a b c -> parts (Done Client r ops :: m) a b ((r, ops) :: c).
Lemma parts_req m a b c r : parts m a b c -> parts (m ++ [Req r]) (a ++ [r]) b c.
Proof. induction 1; cbn; constructor; try assumption. constructor. Qed.
Lemma parts_succ m a b c r ops n : parts m a b c -> parts (m ++ [Success r ops n]) a (b ++ [(r, ops, n)]) c.
Proof. induction 1; cbn; constructor; try assumption. constructor. Qed.
Lemma parts_done m a b c r ops : parts m a b c -> parts (m ++ [Done Client r ops]) a b (c ++ [(r, ops)]).
Proof. induction 1; cbn; constructor; try assumption. constructor. Qed.
Lemma parts_flight m a b c : parts m a b c -> Permutation (flat_map in_mail m) (a ++ map fst (map fst b ++ c)).
Proof.
  induction 1 as [|r m a b c P IH|r ops n m a b c P IH|r ops m a b c P IH]; cbn.
  - constructor.
  - constructor. exact IH.
  - rewrite IH. rewrite !map_app. apply Permutation_middle.
  - rewrite IH. rewrite !map_app. cbn. rewrite !app_assoc. apply Permutation_middle.
Qed.
Lemma parts_recovering m a b c : parts m a b c ->
  existsb (fun m => match m with Loop _ _ => true | Done o _ _ => by_replay o | _ => false end) m = false.
Proof. induction 1; cbn; auto. Qed.

Fixpoint groups (n : nat) (l : list (request * list dop)) : list dop :=
  match l with [] => [] | (_, ops) :: l' => ops ++ DFix n :: groups (S n) l' end.
Lemma groups_app a : forall n b, groups n (a ++ b) = groups n a ++ groups (n + length a) b.
Proof.
  induction a as [|[r ops] a IH]; intros n b; cbn; [rewrite Nat.add_0_r; reflexivity|].
  rewrite IH, <- app_assoc. cbn. rewrite Nat.add_succ_r. reflexivity.
Qed.
(** The commands [A] left for the disk agent, after [pre] of the first statement. *)
Definition front (v : nat) (FL : list (request * list dop)) (pre A : list dop) : Prop :=
  match FL with
  | [] => pre = [] /\ A = []
  | (_, ops) :: FL' => exists post, ops = pre ++ post /\ A = post ++ DFix (S v) :: groups (S (S v)) FL'
  end.
Definition rq (x : origin * request * bool) : request := snd (fst x).
Definition req_ok (k : cat) (r : request) : Prop :=
  statement_ok r = true /\ match r with CreateColl c => In (fst c) (c_dbs k) | _ => True end.
Definition ex_ok (o : origin) (m : coll -> option (list doc)) (x : origin * request * bool) : Prop :=
  fst (fst x) = o /\ snd x = false /\ statement_ok (rq x) = true /\ ddl (rq x) = false /\ exists c, target (rq x) = Some c /\ m c <> None.
Definition absorbed (h : list request) (r : request) : Prop := ddl r = true /\ forall c, same (eff c r (effects h c)) (effects h c).

Record norm (s : sys) (sub V : list request) (FL : list (request * list dop)) (D0 D1 : disk) (R pre A : list dop)
  (Rq : list request) (Sc : list (request * list dop * nat)) (Dn : list (request * list dop)) : Prop := {
  n_mail : parts (s_mail s) Rq Sc Dn;
  n_wal : s_wal s = V ++ map fst FL ++ map fst (map fst Sc);
  n_num : map snd Sc = seq (S (length V + length FL)) (length Sc);
  n_hist : hist_ok V;
  n_chain : chain V (FL ++ map fst Sc ++ s_walq s ++ Dn);
  n_store : forall c, mem_ok (s_store s c) (effects (V ++ map fst (FL ++ map fst Sc ++ s_walq s ++ Dn)) c);
  n_tabs : forall c, c_tabs (s_cat s) c = is_some (effects (V ++ map fst FL) c);
  n_dbs : forall d, In d (c_dbs (s_cat s)) <-> In (CreateDb d) (V ++ map fst FL);
  n_pairs : pairs (Rq ++ map fst (map fst Sc ++ s_walq s ++ Dn) ++ map rq (s_exq s));
  n_reqs : Forall (req_ok (s_cat s)) Rq;
  n_exq : Forall (ex_ok Client (s_store s)) (s_exq s);
  n_agent : s_agent s = map (pair true) R ++ map (pair false) A;
  n_R : apply_all (s_disk s) R = Ok D1;
  n_pre : apply_all D0 pre = Ok D1;
  n_Rpre : R = [] \/ pre = [];
  n_A : front (length V) FL pre A;
  n_last : R = [] -> pre <> [] -> s_last s = Some (last pre (DFix 0));
  n_sim : forall c, simc D0 c (effects V c);
  n_simdb : forall d, In d (d_dbs D0) <-> In (CreateDb d) V;
  n_w1 : d_wal D0 <= length V;
  n_w2 : forall r, In r (skipn (d_wal D0) V) -> absorbed V r;
  n_acked : subseq (s_acked s) (V ++ map fst FL);
  n_sub : exists lost, Permutation (s_wal s ++ map fst (s_walq s ++ Dn) ++ Rq ++ map rq (s_exq s) ++ lost) sub }.
Definition normal (s : sys) (sub : list request) : Prop :=
  exists V FL D0 D1 R pre A Rq Sc Dn, norm s sub V FL D0 D1 R pre A Rq Sc Dn.

(** ** Restarts *)
(** A disk and a log from which a restart gives everything back. *)
Record restartable (k : disk) (W : list request) : Prop := {
  t_hist : hist_ok W;
  t_w : d_wal k <= length W;
  t_same : forall c, same (effs c (skipn (d_wal k) W) (loaded k c)) (effects W c);
  t_db1 : forall d, In d (d_dbs k) -> In (CreateDb d) W;
  t_db2 : forall d, In (CreateDb d) (firstn (d_wal k) W) -> In d (d_dbs k);
  t_tabs : forall c, d_tabs k c = true -> In (fst c) (d_dbs k);
  t_pairs : pairs (skipn (d_wal k) W);
  t_first : d_dbs k = [] -> W = [] }.

Definition fold_cat (k : cat) (dn : list (request * list dop)) : cat := fold_left update_catalog (map fst dn) k.
Record recov (s : sys) (sub : list request) (lp : bool) (P1 P2 : list request) (R : list dop) (dn : list (request * list dop))
  (Dr Ds : disk) : Prop := {
  r_mail : s_mail s = (if lp then [Loop P2 (length (s_wal s))] else []) ++
                      map (fun x => Done (Replay (length (s_wal s))) (fst x) (snd x)) dn;
  r_lp : lp = false -> P2 = [];
  r_walq : s_walq s = [];
  r_agent : s_agent s = map (pair true) R;
  r_exq : Forall (ex_ok (Replay (length (s_wal s))) (s_store s)) (s_exq s);
  r_exqP : forall r, In r (map rq (s_exq s)) -> In r P1;
  r_dn : Forall (fun x => forall d, fst x <> DropDb d) dn;
  r_restart : restartable Dr (s_wal s);
  r_P : skipn (d_wal Dr) (s_wal s) = P1 ++ P2;
  r_disk0 : s_last s = None -> s_disk s = Dr;
  r_apply : apply_all (s_disk s) (R ++ flat_map (fun x => snd x ++ [DFix (length (s_wal s))]) dn) = Ok Ds;
  r_sim : forall c, simc Ds c (option_map get (s_store s c));
  r_well : forall c l, s_store s c = Some l -> well_stored l;
  r_T : forall c, same (effs c (map rq (s_exq s) ++ P2) (option_map get (s_store s c))) (effects (s_wal s) c);
  r_tabs : forall c, c_tabs (fold_cat (s_cat s) dn) c = is_some (s_store s c);
  r_tabs2 : lp = true -> forall c, (forall r, In r P1 -> on r c = true -> ddl r = false) -> c_tabs (s_cat s) c = is_some (s_store s c);
  r_dbs : forall d, In d (c_dbs (fold_cat (s_cat s) dn)) <-> In d (d_dbs Ds);
  r_db1 : forall d, In d (d_dbs Ds) -> In (CreateDb d) (s_wal s);
  r_db2 : forall d, In (CreateDb d) (firstn (d_wal Dr) (s_wal s) ++ P1) -> In d (d_dbs Ds);
  r_has : forall c, c_tabs (s_cat s) c = true -> In (fst c) (c_dbs (s_cat s));
  r_fix : d_wal Ds = length (s_wal s) \/
          (R = [] /\ dn = [] /\ d_wal Ds = d_wal Dr /\
           forall r, In r P1 -> In r (map rq (s_exq s)) \/
             (ddl r = true /\ forall c, same (eff c r (option_map get (s_store s c))) (option_map get (s_store s c))));
  r_acked : subseq (s_acked s) (s_wal s);
  r_sub : exists lost, Permutation (s_wal s ++ lost) sub }.

Definition inv (s : sys) (sub : list request) : Prop :=
  (recovering s = false /\ normal s sub) \/
  (recovering s = true /\ exists lp P1 P2 R dn Dr Ds, recov s sub lp P1 P2 R dn Dr Ds).
