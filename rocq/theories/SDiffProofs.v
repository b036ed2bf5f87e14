(** Proofs about changes of schemas. *)
From Coq Require FinFun.
From Verif Require Import Bytes Outcome ByteOrd OMap SDiffModel SDiffSpec.

(** ** Basics *)
Lemma mem_str_in a l : mem_str a l = true <-> In a l.
Proof.
  unfold mem_str. rewrite existsb_exists. split.
  - intros [x [H1 H2]]. apply beqb_eq in H2. subst. exact H1.
  - intros H. exists a. split; [exact H|apply beqb_refl].
Qed.
Lemma mem_str_out a l : mem_str a l = false <-> ~ In a l.
Proof. rewrite <- mem_str_in. destruct (mem_str a l); split; congruence. Qed.
Lemma mem_id_in a l : mem_id a l = true <-> In a l.
Proof.
  unfold mem_id. rewrite existsb_exists. split.
  - intros [x [H1 H2]]. apply N.eqb_eq in H2. subst. exact H1.
  - intros H. exists a. split; [exact H|apply N.eqb_refl].
Qed.
Lemma mem_id_out a l : mem_id a l = false <-> ~ In a l.
Proof. rewrite <- mem_id_in. destruct (mem_id a l); split; congruence. Qed.
Lemma dup_str_nodup l : dup_str l = false <-> NoDup l.
Proof.
  induction l as [|a r IH]; cbn.
  - split; [constructor|reflexivity].
  - rewrite orb_false_iff, mem_str_out, IH. split; [intros [H1 H2]; constructor; assumption|].
    intros H. inversion H; subst. auto.
Qed.
Lemma dup_id_nodup l : dup_id l = false <-> NoDup l.
Proof.
  induction l as [|a r IH]; cbn.
  - split; [constructor|reflexivity].
  - rewrite orb_false_iff, mem_id_out, IH. split; [intros [H1 H2]; constructor; assumption|].
    intros H. inversion H; subst. auto.
Qed.

Lemma find_ins {A} k k' (v : A) m : mfind bcmp k (minsert bcmp k' v m) = if beqb k k' then Some v else mfind bcmp k m.
Proof. unfold beqb. rewrite (mfind_insert_dec bcmp bcmp_eq). destruct (bcmp k k'); reflexivity. Qed.
Lemma find_empl {A} k k' (v : A) m :
  mfind bcmp k (memplace bcmp k' v m) =
  match mfind bcmp k' m with Some _ => mfind bcmp k m | None => if beqb k k' then Some v else mfind bcmp k m end.
Proof. unfold memplace. destruct (mfind bcmp k' m); [reflexivity|apply find_ins]. Qed.

Lemma beqb_neq a b : a <> b -> beqb a b = false.
Proof. destruct (beqb_spec a b); congruence. Qed.

Lemma aliases_named cs : (forall c, In c cs -> exists x, t_ext (fst c) = Some x) -> aliases cs = Ok (names cs).
Proof.
  induction cs as [|c r IH]; intros H; [reflexivity|]. cbn [aliases names map].
  destruct (H c (or_introl eq_refl)) as [x Hx]. unfold alias, name_of at 1. rewrite Hx. cbn [rbind].
  rewrite IH by (intros c' Hc; apply H; right; exact Hc). reflexivity.
Qed.

(** ** The error of a schema *)
Lemma make_error cs pk : (forall c, In c cs -> exists x, t_ext (fst c) = Some x) ->
  exists s, make_schema cs pk = Ok s /\ s_cols s = cs /\ s_pk s = pk /\
    (s_err s = None <-> NoDup (names cs) /\ NoDup (ids cs) /\ incl pk (ids cs)) /\
    (forall i, In i (ids cs) -> (i <= s_high s)%N).
Proof.
  intros H. unfold make_schema. rewrite (aliases_named cs H). cbn [rbind]. eexists. split; [reflexivity|].
  cbn [s_cols s_pk s_err s_high]. split; [reflexivity|]. split; [reflexivity|]. fold (ids cs). split.
  - rewrite <- dup_str_nodup, <- dup_id_nodup.
    assert (HP : forallb (fun k => mem_id k (ids cs)) pk = true <-> incl pk (ids cs)).
    { rewrite forallb_forall. split; intros HH k Hk; apply mem_id_in, HH, Hk. }
    destruct (forallb _ pk).
    + destruct (dup_id (ids cs)); [split; [discriminate|intros [_ [? _]]; discriminate]|].
      destruct (dup_str (names cs)); [split; [discriminate|intros [? _]; discriminate]|]. split; [|reflexivity].
      intros _. split; [reflexivity|]. split; [reflexivity|]. apply HP. reflexivity.
    + split; [discriminate|]. intros [_ [_ HI]]. apply HP in HI. discriminate.
  - generalize (ids cs) as l. intros l i Hi.
    assert (G : forall l a, (a <= fold_left N.max l a)%N /\ forall i, In i l -> (i <= fold_left N.max l a)%N).
    { induction l0 as [|b r IH]; intros a; cbn; [split; [lia|intros ? []]|].
      destruct (IH (N.max a b)) as [G1 G2]. split; [lia|]. intros j [<-|Hj]; [lia|apply G2, Hj]. }
    apply G, Hi.
Qed.

(** ** Applying a diff *)
Notation U d k := (mfind bcmp k (updates d)).
Notation Rn d k := (mfind bcmp k (renames d)).

Lemma frame o d d' k : sop_do o d = Ok d' -> ~ In k (mentions o) ->
  U d' k = U d k /\ Rn d' k = Rn d k /\ mem_str k (deleted d') = mem_str k (deleted d).
Proof.
  intros Ho Hk. assert (G : forall x, x <> k -> beqb k x = false) by (intros x H; apply beqb_neq; congruence).
  destruct o as [n t r doc|n|n m|n t|n doc|n r]; cbn [sop_do mentions In] in *.
  - injection Ho as <-. auto.
  - injection Ho as <-. split; [reflexivity|]. split; [reflexivity|]. cbn [deleted delete_column].
    destruct (mem_str n (deleted d)); [reflexivity|]. cbn. rewrite G by tauto. reflexivity.
  - injection Ho as <-. unfold rename_column. destruct (U d n); cbn.
    + rewrite find_ins, G by tauto. auto.
    + rewrite !find_empl. rewrite !G by tauto. destruct (U d m), (Rn d n); auto.
  - unfold update_type in Ho. destruct (U d n) as [i|].
    + destruct (alias (u_ty i)); cbn in Ho; [|discriminate]. destruct (t_ext t); [discriminate|]. injection Ho as <-. cbn.
      rewrite find_ins, G by tauto. auto.
    + injection Ho as <-. cbn. rewrite find_empl, G by tauto. destruct (U d n); auto.
  - injection Ho as <-. unfold update_doc. destruct (U d n) as [i|] eqn:E; cbn.
    + rewrite find_ins, G by tauto. auto.
    + rewrite find_empl, E, G by tauto. auto.
  - injection Ho as <-. unfold update_required. destruct (U d n) as [i|] eqn:E; cbn.
    + rewrite find_ins, G by tauto. auto.
    + rewrite find_empl, E, G by tauto. auto.
Qed.

Definition newty (i : info) (c : column) (a : list byte) : ty :=
  if u_type i then assign (fst c) (u_ty i) else if u_name i then set_alias (fst c) a else fst c.
Definition newdesc (i : info) (s : desc) : desc :=
  let s1 := if u_doc i then Desc (d_id s) (d_req s) (d_doc (u_desc i)) else s in
  if u_opt i then Desc (d_id s1) (d_req (u_desc i)) (d_doc s1) else s1.
Lemma change_ok i c a : (u_name i = true -> alias (u_ty i) = Ok a) -> change i c = Ok (newty i c a, newdesc i (snd c)).
Proof.
  intros H. unfold change, newty, newdesc. destruct (u_name i), (u_type i); cbn [andb negb rbind]; try reflexivity.
  rewrite (H eq_refl). reflexivity.
Qed.

Section Tidy.
  Variable base : list column.
  Hypothesis Hsound : sound base.

  Definition spent (os : list sop) (m : list byte) : Prop :=
    ~ In m (names base) /\ In m (flat_map mentions os) /\ forall x, In x (names base) -> phase_of os x <> Moved m.
  Definition fits (i : info) (c : column) (v : dcol) : Prop := exists c', change i c = Ok c' /\ same c' v.

  Definition fate (os : list sop) (v : dcol) : option dcol :=
    fold_left (fun o op => match o with Some v => one op v | None => None end) os (Some v).

  Definition col_inv (os : list sop) (d : sdiff) (c : column) : Prop :=
    let n := name_of c in
    let cur := fate os (view c) in
    match phase_of os n with
    | Untouched => cur = Some (view c) /\ U d n = None /\ Rn d n = None /\ mem_str n (deleted d) = false
    | Own => exists i v, cur = Some v /\ n_name v = n /\ U d n = Some i /\ mem_str n (deleted d) = false /\
        t_ext (u_ty i) = None /\ u_name i = false /\ (u_type i = true -> more_of (fst c) = 0%N) /\ fits i c v
    | Moved m => exists i v, cur = Some v /\ n_name v = m /\ U d n = None /\ Rn d n = Some m /\ U d m = Some i /\
        mem_str n (deleted d) = false /\ t_ext (u_ty i) = Some (Ext 0 m) /\ u_name i = true /\ fits i c v
    | Closed => exists i v, cur = Some v /\ mem_str n (deleted d) = false /\
        (U d n = Some i \/ exists m, U d n = None /\ Rn d n = Some m /\ U d m = Some i /\ spent os m) /\
        fits i c v /\ spent os (n_name v)
    | Gone => cur = None /\ mem_str n (deleted d) = true
    end.

  (** New names are not names of the table, and belong to one column. *)
  Record J (os : list sop) : Prop := {
    J_new : forall x m, In x (names base) -> phase_of os x = Moved m -> ~ In m (names base) /\ In m (flat_map mentions os);
    J_one : forall x y m, In x (names base) -> In y (names base) ->
              phase_of os x = Moved m -> phase_of os y = Moved m -> x = y
  }.

  Lemma phase_snoc os o n : phase_of (os ++ [o]) n = phase1 n (phase_of os n) o.
  Proof. unfold phase_of. rewrite fold_left_app. reflexivity. Qed.
  Lemma mentions_snoc os o : flat_map mentions (os ++ [o]) = flat_map mentions os ++ mentions o.
  Proof. rewrite flat_map_app. cbn. rewrite app_nil_r. reflexivity. Qed.
  Lemma fate_snoc os o v : fate (os ++ [o]) v = match fate os v with Some w => one o w | None => None end.
  Proof. unfold fate. rewrite fold_left_app. reflexivity. Qed.

  Lemma fresh_spec os m : fresh base os m = true <-> ~ In m (names base) /\ ~ In m (flat_map mentions os).
  Proof. unfold fresh. rewrite andb_true_iff, !negb_true_iff, !mem_str_out. tauto. Qed.
  Lemma held_spec os n : held base os n = true <-> In n (names base) /\ (phase_of os n = Untouched \/ phase_of os n = Own).
  Proof.
    unfold held. rewrite andb_true_iff, mem_str_in. destruct (phase_of os n); split; intros [H1 H2]; (split; [exact H1|]); auto;
      try discriminate; destruct H2; discriminate.
  Qed.
  Lemma moved_spec os n : moved base os n = true <-> exists x, In x (names base) /\ phase_of os x = Moved n.
  Proof.
    unfold moved. rewrite existsb_exists. split; intros [x [H1 H2]]; exists x; (split; [exact H1|]).
    - destruct (phase_of os x); try discriminate. apply beqb_eq in H2. congruence.
    - rewrite H2. apply beqb_refl.
  Qed.

  (** What an allowed change may name. *)
  Lemma ok_mentions os o x : ok_op base os o = true -> In x (mentions o) ->
    fresh base os x = true \/ held base os x = true \/ moved base os x = true.
  Proof.
    intros Ho Hx. destruct o as [n t r doc|n|n m|n t|n doc|n r]; cbn [ok_op mentions In] in *.
    - destruct Hx as [<-|[]]. auto.
    - destruct Hx as [<-|[]]. auto.
    - apply andb_true_iff in Ho. destruct Ho as [H1 H2]. destruct Hx as [<-|[<-|[]]]; [|auto].
      apply orb_true_iff in H2. tauto.
    - destruct Hx as [<-|[]]. apply andb_true_iff in Ho. destruct Ho as [_ H]. apply orb_true_iff in H. destruct H as [H|H]; [auto|].
      right. left. apply held_spec. apply andb_true_iff in H. destruct H as [H1 H2]. apply mem_str_in in H1. split; [exact H1|].
      destruct (phase_of os n); try discriminate. auto.
    - destruct Hx as [<-|[]]. apply orb_true_iff in Ho. tauto.
    - destruct Hx as [<-|[]]. apply orb_true_iff in Ho. tauto.
  Qed.

  Lemma spent_out os o m : ok_op base os o = true -> spent os m -> ~ In m (mentions o).
  Proof.
    intros Ho [S1 [S2 S3]] Hi. destruct (ok_mentions _ _ _ Ho Hi) as [H|[H|H]].
    - apply fresh_spec in H. tauto.
    - apply held_spec in H. tauto.
    - apply moved_spec in H. destruct H as [x [Hx Hp]]. apply (S3 x Hx Hp).
  Qed.

  Lemma phase1_moved os n o m : phase1 n (phase_of os n) o = Moved m ->
    phase_of os n = Moved m \/ (phase_of os n = Untouched /\ o = Rename n m).
  Proof.
    destruct (phase_of os n) eqn:E, o as [a t r doc|a|a b|a t|a doc|a r]; cbn; intros H; try discriminate; try (left; exact H);
      try (destruct (beqb_spec a n); discriminate).
    - destruct (beqb_spec a n) as [->|]; [|discriminate]. injection H as ->. right. auto.
    - destruct (beqb a m0); [discriminate|]. left. exact H.
  Qed.

  Lemma spent_snoc os o m : ok_op base os o = true -> spent os m -> spent (os ++ [o]) m.
  Proof.
    intros Ho HS. pose proof (spent_out _ _ _ Ho HS) as Hn. destruct HS as [S1 [S2 S3]]. split; [exact S1|]. split.
    - rewrite mentions_snoc. apply in_or_app. left. exact S2.
    - intros x Hx Hp. rewrite phase_snoc in Hp. apply phase1_moved in Hp. destruct Hp as [Hp|[_ ->]]; [apply (S3 x Hx Hp)|].
      apply Hn. cbn. auto.
  Qed.

  Lemma J_empty : J [].
  Proof. split; intros; discriminate. Qed.
  Lemma J_snoc os o : J os -> ok_op base os o = true -> J (os ++ [o]).
  Proof.
    intros [J1 J2] Ho. assert (Hf : forall n m, o = Rename n m -> ~ In m (names base) /\ ~ In m (flat_map mentions os)).
    { intros n m ->. cbn in Ho. apply andb_true_iff in Ho. apply fresh_spec. tauto. }
    split.
    - intros x m Hx Hp. rewrite phase_snoc in Hp. rewrite mentions_snoc, in_app_iff.
      apply phase1_moved in Hp. destruct Hp as [Hp|[Hp ->]].
      + destruct (J1 x m Hx Hp). auto.
      + destruct (Hf x m eq_refl). split; [assumption|]. right. cbn. auto.
    - intros x y m Hx Hy Hpx Hpy. rewrite phase_snoc in Hpx, Hpy. apply phase1_moved in Hpx, Hpy.
      destruct Hpx as [Hpx|[Hpx E1]], Hpy as [Hpy|[Hpy E2]].
      + exact (J2 x y m Hx Hy Hpx Hpy).
      + exfalso. destruct (Hf y m E2) as [_ HH]. apply HH. apply (J1 x m Hx Hpx).
      + exfalso. destruct (Hf x m E1) as [_ HH]. apply HH. apply (J1 y m Hy Hpy).
      + congruence.
  Qed.

  (** Changes that do not name a column leave it as it is. *)
  Lemma one_out o v : ~ In (n_name v) (mentions o) -> one o v = Some v.
  Proof.
    intros H. destruct o as [n t r doc|n|n m|n t|n doc|n r]; cbn in *; [reflexivity| | | | |];
      rewrite beqb_neq by (intros E; apply H; auto); reflexivity.
  Qed.
  Lemma phase_out os n o : ~ In n (mentions o) ->
    (forall m, phase_of os n = Moved m -> ~ In m (mentions o)) -> phase1 n (phase_of os n) o = phase_of os n.
  Proof.
    intros H Hm. destruct (phase_of os n) eqn:E; destruct o as [a t r doc|a|a b|a t|a doc|a r]; cbn in *; try reflexivity;
      try (rewrite beqb_neq by (intros ->; apply H; auto); reflexivity).
    rewrite beqb_neq by (intros ->; apply (Hm _ eq_refl); auto). reflexivity.
  Qed.

  Lemma named c : In c base -> t_ext (fst c) = Some (Ext (more_of (fst c)) (name_of c)).
  Proof.
    intros Hc. destruct Hsound as [H _]. destruct (H c Hc) as [[a b] Hx]. unfold more_of, name_of. rewrite Hx. reflexivity.
  Qed.

  Definition all_inv os d :=
    (forall k, U d k <> None -> In k (flat_map mentions os)) /\ forall c, In c base -> col_inv os d c.

  Lemma keys_step os o d d' : (forall k, U d k <> None -> In k (flat_map mentions os)) -> sop_do o d = Ok d' ->
    forall k, U d' k <> None -> In k (flat_map mentions (os ++ [o])).
  Proof.
    intros HK Hd k Hk. rewrite mentions_snoc, in_app_iff.
    destruct (in_dec (list_eq_dec ascii_dec) k (mentions o)) as [Hi|Hi]; [auto|].
    left. apply HK. destruct (frame o d d' k Hd Hi) as [<- _]. exact Hk.
  Qed.

  Lemma col_of x : In x (names base) -> exists c, In c base /\ name_of c = x.
  Proof. unfold names. rewrite in_map_iff. intros [c [H1 H2]]. exists c. auto. Qed.

  (** The change is recorded. *)
  Lemma step_ok os o d : J os -> all_inv os d -> ok_op base os o = true -> exists d', sop_do o d = Ok d'.
  Proof.
    intros HJ [_ HI] Ho. destruct o as [n t r doc|n|n m|n t|n doc|n r]; cbn [sop_do]; try (eexists; reflexivity).
    cbn [ok_op] in Ho. apply andb_true_iff in Ho. destruct Ho as [Hp Ho]. unfold plain_ty in Hp.
    unfold update_type. apply orb_true_iff in Ho. destruct Ho as [Ho|Ho].
    - apply moved_spec in Ho. destruct Ho as [x [Hx Hph]]. destruct (col_of x Hx) as [c [Hc <-]].
      pose proof (HI c Hc) as HIc. unfold col_inv in HIc. rewrite Hph in HIc.
      destruct HIc as [i [v [_ [_ [_ [_ [-> [_ [HE _]]]]]]]]]. unfold alias. rewrite HE. cbn [rbind].
      destruct (t_ext t); [discriminate|]. eexists. reflexivity.
    - apply andb_true_iff in Ho. destruct Ho as [Hx Ho]. apply mem_str_in in Hx. destruct (col_of n Hx) as [c [Hc Hn]].
      pose proof (HI c Hc) as HIc. unfold col_inv in HIc. rewrite Hn in HIc.
      destruct (phase_of os n); try discriminate. destruct HIc as [_ [-> _]]. eexists. reflexivity.
  Qed.

  Lemma step_inv os o d d' : J os -> all_inv os d -> ok_op base os o = true -> sop_do o d = Ok d' -> all_inv (os ++ [o]) d'.
  Proof.
    intros HJ [HK HI] Ho Hd. split; [exact (keys_step os o d d' HK Hd)|].
    intros c Hc. pose proof (HI c Hc) as HIc. unfold col_inv in *. cbv zeta in *.
    set (n := name_of c) in *. assert (Hn : In n (names base)) by (apply in_map; exact Hc).
    pose proof (named c Hc) as Hnm. fold n in Hnm.
    rewrite phase_snoc, fate_snoc.
    (* columns that cannot be named any more *)
    assert (Hno : phase_of os n <> Untouched -> phase_of os n <> Own -> ~ In n (mentions o)).
    { intros H1 H2 Hi. destruct (ok_mentions _ _ _ Ho Hi) as [H|[H|H]].
      - apply fresh_spec in H. tauto.
      - apply held_spec in H. tauto.
      - apply moved_spec in H. destruct H as [x [Hx Hp]]. apply (J_new _ HJ x n Hx Hp). exact Hn. }
    assert (Htgt : forall a b, o = Rename a b -> ~ In b (names base) /\ ~ In b (flat_map mentions os)).
    { intros a b ->. cbn in Ho. apply andb_true_iff in Ho. destruct Ho as [Ho _]. apply fresh_spec in Ho. exact Ho. }
    assert (Hself : forall a b, o = Rename a b -> beqb n b = false).
    { intros a b E. destruct (Htgt a b E) as [H _]. apply beqb_neq. intros ->. contradiction. }
    assert (Hnew : forall a b, o = Rename a b -> spent (os ++ [o]) b \/ exists x, In x (names base) /\ phase_of os x = Untouched /\ a = x).
    { intros a b ->. destruct (Htgt a b eq_refl) as [T1 T2].
      destruct (in_dec (list_eq_dec ascii_dec) a (names base)) as [Ha|Ha].
      - destruct (phase_of os a) eqn:Ep; [right; exists a; auto| | | |].
        all: left; split; [exact T1|]; split; [rewrite mentions_snoc, in_app_iff; right; cbn; auto|];
          intros x Hx Hp; rewrite phase_snoc in Hp; apply phase1_moved in Hp; destruct Hp as [Hp|[Hp HE]];
          [apply T2; apply (J_new _ HJ x b Hx Hp)|injection HE as <-; congruence].
      - left. split; [exact T1|]. split; [rewrite mentions_snoc, in_app_iff; right; cbn; auto|].
        intros x Hx Hp. rewrite phase_snoc in Hp. apply phase1_moved in Hp. destruct Hp as [Hp|[Hp HE]].
        + apply T2. apply (J_new _ HJ x b Hx Hp).
        + injection HE as <-. contradiction. }
    destruct (phase_of os n) as [| |m| |] eqn:Hph.
    - (* untouched *)
      destruct HIc as [Hcur [HU [HR HD]]]. rewrite Hcur.
      destruct (in_dec (list_eq_dec ascii_dec) n (mentions o)) as [Hi|Hi].
      + destruct o as [a t r doc|a|a b|a t|a doc|a r]; cbn [mentions In phase1 one sop_do] in *.
        * exfalso. destruct Hi as [<-|[]]. cbn in Ho. apply fresh_spec in Ho. tauto.
        * destruct Hi as [->|[]]. rewrite beqb_refl. cbn [n_name view]. fold n. rewrite beqb_refl. split; [reflexivity|].
          injection Hd as <-. cbn [deleted delete_column]. destruct (mem_str n (deleted d)) eqn:E; [exact E|].
          apply mem_str_in. left. reflexivity.
        * destruct Hi as [->|[->|[]]]; [|exfalso; destruct (Htgt _ _ eq_refl); contradiction].
          rewrite beqb_refl. cbn [n_name view]. fold n. rewrite beqb_refl. injection Hd as <-.
          destruct (Htgt n b eq_refl) as [T1 T2]. pose proof (Hself n b eq_refl) as Hnb.
          assert (Hub : U d b = None).
          { destruct (U d b) eqn:E; [|reflexivity]. exfalso. apply T2, HK. congruence. }
          unfold rename_column. rewrite HU. cbn [updates renames deleted].
          exists (Info false true false false (set_alias no_ty b) no_desc).
          eexists. split; [reflexivity|]. split; [reflexivity|]. rewrite !find_empl, Hub, HR, Hnb, !beqb_refl.
          split; [exact HU|]. split; [reflexivity|]. split; [reflexivity|]. split; [exact HD|]. split; [reflexivity|].
          split; [reflexivity|]. eexists. split; [reflexivity|].
          unfold same, set_alias. cbn. rewrite Hnm. cbn. auto.
        * destruct Hi as [->|[]]. rewrite beqb_refl. cbn [n_name view]. fold n. rewrite beqb_refl.
          cbn [ok_op] in Ho. apply andb_true_iff in Ho. destruct Ho as [Hp Ho]. unfold plain_ty in Hp.
          destruct (t_ext t) eqn:Et; [discriminate|].
          assert (Hpl : more_of (fst c) = 0%N).
          { apply orb_true_iff in Ho. destruct Ho as [Ho|Ho].
            - exfalso. apply moved_spec in Ho. destruct Ho as [x [Hx Hp2]]. destruct (J_new _ HJ x n Hx Hp2). contradiction.
            - apply andb_true_iff in Ho. destruct Ho as [_ Ho]. rewrite Hph in Ho. unfold plain_col in Ho.
              rewrite forallb_forall in Ho. specialize (Ho c Hc). fold n in Ho. rewrite beqb_refl in Ho. cbn in Ho.
              apply N.eqb_eq. exact Ho. }
          unfold update_type in Hd. rewrite HU in Hd. injection Hd as <-. cbn [with_updates updates renames deleted].
          exists (Info true false false false t no_desc). eexists. split; [reflexivity|]. split; [reflexivity|].
          rewrite find_empl, HU, beqb_refl. split; [reflexivity|]. split; [exact HD|]. split; [exact Et|].
          split; [reflexivity|]. split; [intros _; exact Hpl|]. eexists. split; [reflexivity|].
          rewrite Hpl in Hnm. unfold same, assign. cbn. rewrite Et, Hnm. unfold more_of. rewrite Et. auto.
        * destruct Hi as [->|[]]. rewrite beqb_refl. cbn [n_name view]. fold n. rewrite beqb_refl. injection Hd as <-.
          unfold update_doc. rewrite HU. cbn [with_updates updates renames deleted].
          exists (Info false false true false no_ty (Desc 0 false doc)). eexists. split; [reflexivity|]. split; [reflexivity|].
          rewrite find_empl, HU, beqb_refl. split; [reflexivity|]. split; [exact HD|]. split; [reflexivity|].
          split; [reflexivity|]. split; [discriminate|]. eexists. split; [reflexivity|].
          unfold same. cbn. rewrite Hnm. auto.
        * destruct Hi as [->|[]]. rewrite beqb_refl. cbn [n_name view]. fold n. rewrite beqb_refl. injection Hd as <-.
          unfold update_required. rewrite HU. cbn [with_updates updates renames deleted].
          exists (Info false false false true no_ty (Desc 0 r [])). eexists. split; [reflexivity|]. split; [reflexivity|].
          rewrite find_empl, HU, beqb_refl. split; [reflexivity|]. split; [exact HD|]. split; [reflexivity|].
          split; [reflexivity|]. split; [discriminate|]. eexists. split; [reflexivity|].
          unfold same. cbn. rewrite Hnm. auto.
      + replace (phase1 n Untouched o) with Untouched.
        2:{ rewrite <- Hph. symmetry. apply phase_out; [exact Hi|]. intros m E. congruence. }
        destruct (frame o d d' n Hd Hi) as [-> [-> ->]]. split; [|auto]. apply one_out. cbn. fold n. exact Hi.
    - (* changed under its own name *)
      destruct HIc as [i [v [Hcur [Hvn [HU [HD [HE [Hun [Hpl [[t' s'] [Hch HS]]]]]]]]]]]. rewrite Hcur.
      unfold change in Hch. rewrite Hun in Hch. cbn [andb rbind] in Hch. injection Hch as Ht' Hs'.
      destruct HS as [S1 [S2 [S3 [S4 S5]]]]. cbn [fst snd] in *.
      destruct (in_dec (list_eq_dec ascii_dec) n (mentions o)) as [Hi|Hi].
      + destruct o as [a t r doc|a|a b|a t|a doc|a r]; cbn [mentions In phase1 one sop_do] in *.
        * exfalso. destruct Hi as [<-|[]]. cbn in Ho. apply fresh_spec in Ho. tauto.
        * destruct Hi as [->|[]]. rewrite Hvn, !beqb_refl. split; [reflexivity|].
          injection Hd as <-. cbn [deleted delete_column]. destruct (mem_str n (deleted d)) eqn:E; [exact E|].
          apply mem_str_in. left. reflexivity.
        * destruct Hi as [->|[->|[]]]; [|exfalso; destruct (Htgt _ _ eq_refl); contradiction].
          rewrite Hvn, !beqb_refl. injection Hd as <-. unfold rename_column. rewrite HU. cbn [with_updates updates renames deleted].
          eexists. eexists. split; [reflexivity|]. split; [exact HD|]. rewrite find_ins, beqb_refl.
          split; [left; reflexivity|]. split.
          -- eexists. split.
             { apply (change_ok _ _ b). reflexivity. }
             unfold newty, newdesc. cbn [u_type u_name u_doc u_opt u_ty u_desc]. unfold same. cbn [fst snd n_name n_kind n_more n_req n_doc n_id]. rewrite Hs'.
             destruct (u_type i).
             ++ unfold assign. cbn [t_ext t_kind set_alias]. rewrite HE. rewrite <- Ht' in S1, S2. unfold assign in S1, S2. cbn in S1, S2.
                rewrite HE, Hnm in S1. injection S1 as S1 _. rewrite (Hpl eq_refl) in S1. rewrite <- S1. auto.
             ++ unfold set_alias. cbn [t_ext t_kind]. rewrite Ht', S1. cbn. auto.
          -- cbn [n_name]. destruct (Hnew n b eq_refl) as [H|[x [_ [H ->]]]]; [exact H|congruence].
        * exfalso. destruct Hi as [->|[]]. cbn [ok_op] in Ho. apply andb_true_iff in Ho. destruct Ho as [_ Ho].
          apply orb_true_iff in Ho. destruct Ho as [Ho|Ho].
          -- apply moved_spec in Ho. destruct Ho as [x [Hx Hp2]]. destruct (J_new _ HJ x n Hx Hp2). contradiction.
          -- rewrite Hph, andb_false_r in Ho. discriminate.
        * destruct Hi as [->|[]]. rewrite Hvn, beqb_refl. injection Hd as <-.
          unfold update_doc. rewrite HU. cbn [with_updates updates renames deleted]. eexists. eexists. split; [reflexivity|].
          split; [reflexivity|]. rewrite find_ins, beqb_refl. split; [reflexivity|]. split; [exact HD|]. split; [exact HE|].
          split; [exact Hun|]. split; [exact Hpl|]. eexists. split.
          { unfold change. cbn [u_type u_name u_doc u_opt u_ty u_desc]. rewrite Hun. cbn [andb rbind]. reflexivity. }
          unfold same. cbn [fst snd n_name n_kind n_more n_req n_doc n_id]. rewrite Ht'. rewrite <- Hs' in S3, S5.
          destruct (u_doc i), (u_opt i); cbn [d_id d_req d_doc] in *; rewrite <- Hvn; auto.
        * destruct Hi as [->|[]]. rewrite Hvn, beqb_refl. injection Hd as <-.
          unfold update_required. rewrite HU. cbn [with_updates updates renames deleted]. eexists. eexists. split; [reflexivity|].
          split; [reflexivity|]. rewrite find_ins, beqb_refl. split; [reflexivity|]. split; [exact HD|]. split; [exact HE|].
          split; [exact Hun|]. split; [exact Hpl|]. eexists. split.
          { unfold change. cbn [u_type u_name u_doc u_opt u_ty u_desc]. rewrite Hun. cbn [andb rbind]. reflexivity. }
          unfold same. cbn [fst snd n_name n_kind n_more n_req n_doc n_id]. rewrite Ht'. rewrite <- Hs' in S4, S5.
          destruct (u_doc i), (u_opt i); cbn [d_id d_req d_doc] in *; rewrite <- Hvn; auto.
      + replace (phase1 n Own o) with Own.
        2:{ rewrite <- Hph. symmetry. apply phase_out; [exact Hi|]. intros m E. congruence. }
        destruct (frame o d d' n Hd Hi) as [-> [_ ->]]. exists i, v. rewrite one_out by (rewrite Hvn; exact Hi).
        split; [reflexivity|]. split; [exact Hvn|]. split; [exact HU|]. split; [exact HD|]. split; [exact HE|].
        split; [exact Hun|]. split; [exact Hpl|]. exists (t', s'). split.
        * unfold change. rewrite Hun. cbn [andb rbind]. rewrite <- Ht', <- Hs'. reflexivity.
        * unfold same. auto.
    - (* renamed first *)
      destruct HIc as [i [v [Hcur [Hvn [HU [HR [HM [HD [HE [Hun [[t' s'] [Hch HS]]]]]]]]]]]]. rewrite Hcur.
      assert (Hno' : ~ In n (mentions o)) by (apply Hno; discriminate).
      destruct (frame o d d' n Hd Hno') as [FU [FR FD]].
      destruct (J_new _ HJ n m Hn Hph) as [Jm1 Jm2].
      unfold change in Hch. rewrite Hun in Hch. cbn [andb] in Hch. unfold alias in Hch. rewrite HE in Hch. cbn [rbind x_alias] in Hch.
      assert (Hch2 : (if u_type i then assign (fst c) (u_ty i) else set_alias (fst c) m) = t' /\
         (let s := snd c in let s1 := if u_doc i then Desc (d_id s) (d_req s) (d_doc (u_desc i)) else s in
          if u_opt i then Desc (d_id s1) (d_req (u_desc i)) (d_doc s1) else s1) = s').
      { destruct (u_type i); cbn [negb rbind] in Hch; injection Hch as H1 H2; auto. }
      clear Hch. destruct Hch2 as [Ht' Hs']. cbv zeta in Hs'.
      destruct HS as [S1 [S2 [S3 [S4 S5]]]]. cbn [fst snd] in *.
      destruct (in_dec (list_eq_dec ascii_dec) m (mentions o)) as [Hi|Hi].
      + destruct o as [a t r doc|a|a b|a t|a doc|a r]; cbn [mentions In phase1 one sop_do] in *.
        * exfalso. destruct Hi as [<-|[]]. cbn in Ho. apply fresh_spec in Ho. tauto.
        * exfalso. destruct Hi as [->|[]]. cbn in Ho. apply held_spec in Ho. tauto.
        * destruct Hi as [->|[->|[]]]; [|exfalso; destruct (Htgt _ _ eq_refl); contradiction].
          rewrite Hvn, !beqb_refl. injection Hd as <-.
          assert (Hmn : beqb n m = false) by (apply beqb_neq; intros ->; contradiction).
          assert (HsP : forall q, q = m \/ q = b -> spent (os ++ [Rename m b]) q).
          { intros q [->| ->].
            - split; [exact Jm1|]. split; [rewrite mentions_snoc, in_app_iff; auto|]. intros x Hx Hp. rewrite phase_snoc in Hp.
              pose proof Hp as Hp0. apply phase1_moved in Hp. destruct Hp as [Hp|[Hp HEq]].
              + rewrite Hp in Hp0. cbn in Hp0. rewrite beqb_refl in Hp0. discriminate.
              + injection HEq as -> _. contradiction.
            - destruct (Hnew m b eq_refl) as [H|[x [Hx [_ ->]]]]; [exact H|contradiction]. }
          unfold rename_column in *. rewrite HM in *. cbn [with_updates updates renames deleted] in *.
          eexists. eexists. split; [reflexivity|]. split; [exact HD|]. split.
          { right. exists m. split; [rewrite FU; exact HU|]. split; [exact HR|]. split; [rewrite find_ins, beqb_refl; reflexivity|].
            apply HsP. auto. }
          split.
          -- eexists. split.
             { apply (change_ok _ _ b). reflexivity. }
             unfold newty, newdesc. cbn [u_type u_name u_doc u_opt u_ty u_desc]. unfold same. cbn [fst snd n_name n_kind n_more n_req n_doc n_id]. rewrite Hs'.
             destruct (u_type i).
             ++ unfold assign. cbn [t_ext t_kind set_alias]. rewrite HE. rewrite <- Ht' in S1, S2. unfold assign in S1, S2. cbn in S1, S2.
                rewrite HE in S1. injection S1 as S1 _. cbn. rewrite <- S1. auto.
             ++ unfold set_alias in *. cbn [t_ext t_kind] in *. rewrite <- Ht' in S1, S2. cbn in S1, S2. injection S1 as S1 _.
                rewrite S1. auto.
          -- cbn [n_name]. apply HsP. auto.
        * destruct Hi as [->|[]]. rewrite Hvn, beqb_refl. cbn [ok_op] in Ho. apply andb_true_iff in Ho. destruct Ho as [Hp _]. unfold plain_ty in Hp.
          destruct (t_ext t) eqn:Et; [discriminate|].
          unfold update_type in Hd. rewrite HM in Hd. unfold alias in Hd. rewrite HE in Hd. cbn [rbind x_alias] in Hd. rewrite Et in Hd.
          injection Hd as <-. cbn [with_updates updates renames deleted] in *. eexists. eexists. split; [reflexivity|].
          split; [reflexivity|]. rewrite FU. split; [exact HU|]. split; [exact HR|]. rewrite find_ins, beqb_refl. split; [reflexivity|].
          split; [exact HD|]. cbn [u_ty u_name]. unfold set_alias, assign. rewrite Et. cbn [t_ext t_kind]. rewrite HE. cbn [x_more].
          split; [reflexivity|]. split; [exact Hun|]. eexists. split.
          { unfold change. cbn [u_type u_name u_doc u_opt u_ty u_desc]. rewrite Hun. cbn [andb negb rbind]. reflexivity. }
          unfold same. cbn [fst snd n_name n_kind n_more n_req n_doc n_id assign t_ext t_kind]. unfold more_of. rewrite Et, Hs'.
          auto.
        * destruct Hi as [->|[]]. rewrite Hvn, beqb_refl. injection Hd as <-.
          unfold update_doc in *. rewrite HM in *. cbn [with_updates updates renames deleted] in *. eexists. eexists. split; [reflexivity|].
          split; [reflexivity|]. rewrite FU. split; [exact HU|]. split; [exact HR|]. rewrite find_ins, beqb_refl. split; [reflexivity|].
          split; [exact HD|]. split; [exact HE|]. split; [exact Hun|]. eexists. split.
          { apply (change_ok _ _ m). intros _. unfold alias. cbn [u_ty]. rewrite HE. reflexivity. }
          unfold newty, newdesc. cbn [u_type u_name u_doc u_opt u_ty u_desc]. rewrite Hun.
          unfold same. cbn [fst snd n_name n_kind n_more n_req n_doc n_id]. rewrite <- Hs' in S3, S5.
          destruct (u_type i); rewrite ?Ht'; destruct (u_doc i), (u_opt i); cbn [d_id d_req d_doc] in *; rewrite <- Hvn; auto.
        * destruct Hi as [->|[]]. rewrite Hvn, beqb_refl. injection Hd as <-.
          unfold update_required in *. rewrite HM in *. cbn [with_updates updates renames deleted] in *. eexists. eexists. split; [reflexivity|].
          split; [reflexivity|]. rewrite FU. split; [exact HU|]. split; [exact HR|]. rewrite find_ins, beqb_refl. split; [reflexivity|].
          split; [exact HD|]. split; [exact HE|]. split; [exact Hun|]. eexists. split.
          { apply (change_ok _ _ m). intros _. unfold alias. cbn [u_ty]. rewrite HE. reflexivity. }
          unfold newty, newdesc. cbn [u_type u_name u_doc u_opt u_ty u_desc]. rewrite Hun.
          unfold same. cbn [fst snd n_name n_kind n_more n_req n_doc n_id]. rewrite <- Hs' in S4, S5.
          destruct (u_type i); rewrite ?Ht'; destruct (u_doc i), (u_opt i); cbn [d_id d_req d_doc] in *; rewrite <- Hvn; auto.
      + replace (phase1 n (Moved m) o) with (Moved m).
        2:{ rewrite <- Hph. symmetry. apply phase_out; [exact Hno'|]. intros m0 E. rewrite Hph in E. injection E as <-. exact Hi. }
        destruct (frame o d d' m Hd Hi) as [FM _]. rewrite FU, FR, FD, FM. exists i, v. rewrite one_out by (rewrite Hvn; exact Hi).
        split; [reflexivity|]. split; [exact Hvn|]. split; [exact HU|]. split; [exact HR|]. split; [exact HM|]. split; [exact HD|].
        split; [exact HE|]. split; [exact Hun|]. exists (t', s'). split.
        * unfold change. rewrite Hun. unfold alias. rewrite HE. cbn [andb rbind x_alias]. rewrite <- Hs', <- Ht'.
          destruct (u_type i); cbn [negb rbind]; reflexivity.
        * unfold same. auto.
    - (* closed *)
      destruct HIc as [i [v [Hcur [HD [HU [HF HSp]]]]]]. rewrite Hcur.
      assert (Hno' : ~ In n (mentions o)) by (apply Hno; discriminate).
      destruct (frame o d d' n Hd Hno') as [FU [FR FD]].
      replace (phase1 n Closed o) with Closed by (destruct o; reflexivity).
      rewrite one_out by (apply (spent_out _ _ _ Ho HSp)). exists i, v. rewrite FU, FR, FD.
      split; [reflexivity|]. split; [exact HD|]. split; [|split; [exact HF|apply (spent_snoc _ _ _ Ho HSp)] ].
      destruct HU as [HU|[m0 [HU [HR [HM HS0]]]]]; [left; exact HU|right]. exists m0.
      destruct (frame o d d' m0 Hd (spent_out _ _ _ Ho HS0)) as [FM _]. rewrite FM.
      split; [exact HU|]. split; [exact HR|]. split; [exact HM|]. apply (spent_snoc _ _ _ Ho HS0).
    - (* deleted *)
      destruct HIc as [Hcur HD]. rewrite Hcur. replace (phase1 n Gone o) with Gone by (destruct o; reflexivity).
      split; [reflexivity|]. assert (Hno' : ~ In n (mentions o)) by (apply Hno; discriminate).
      destruct (frame o d d' n Hd Hno') as [_ [_ ->]]. exact HD.
  Qed.

  Definition added_by (os : list sop) : list dcol :=
    flat_map (fun o => match o with Add n t r doc => [DCol n (t_kind t) (more_of t) None r doc] | _ => [] end) os.
  Lemma added_snoc os o : added_by (os ++ [o]) =
    added_by os ++ match o with Add n t r doc => [DCol n (t_kind t) (more_of t) None r doc] | _ => [] end.
  Proof. unfold added_by. rewrite flat_map_app. cbn. rewrite app_nil_r. reflexivity. Qed.

  Lemma tidy_snoc os : forall b o, tidy base b (os ++ [o]) = tidy base b os && ok_op base (b ++ os) o.
  Proof.
    induction os as [|a r IH]; intros b o; cbn.
    - rewrite app_nil_r, andb_true_r. reflexivity.
    - rewrite IH, <- app_assoc, andb_assoc. reflexivity.
  Qed.
  Lemma build_snoc os : forall d o, build (os ++ [o]) d = (do d1 <- build os d; sop_do o d1).
  Proof.
    induction os as [|a r IH]; intros d o; cbn.
    - destruct (sop_do o d); reflexivity.
    - destruct (sop_do a d); cbn; [apply IH|reflexivity].
  Qed.
  Lemma describe_snoc os o cs : describe cs (os ++ [o]) = describe1 (describe cs os) o.
  Proof. unfold describe. rewrite fold_left_app. reflexivity. Qed.

  Lemma keep_app {A} (x y : list (option A)) : keep (x ++ y) = keep x ++ keep y.
  Proof. apply flat_map_app. Qed.

  Lemma keep_one os o : forall l, keep (map (one o) (keep (map (fate os) l))) = keep (map (fate (os ++ [o])) l).
  Proof.
    induction l as [|v l IH]; [reflexivity|]. cbn [map]. change (keep (fate os v :: map (fate os) l)) with ((match fate os v with Some a => [a] | None => [] end) ++ keep (map (fate os) l)).
    rewrite map_app, keep_app, IH. change (keep (fate (os ++ [o]) v :: map (fate (os ++ [o])) l)) with ((match fate (os ++ [o]) v with Some a => [a] | None => [] end) ++ keep (map (fate (os ++ [o])) l)).
    f_equal. rewrite fate_snoc. destruct (fate os v) as [w|]; [|reflexivity]. cbn. destruct (one o w); reflexivity.
  Qed.

  Lemma same_added n t r doc : same (set_alias t n, Desc 0 r doc) (DCol n (t_kind t) (more_of t) None r doc).
  Proof. unfold same, set_alias, more_of. cbn. auto. Qed.

  (** Everything after a tidy list of changes. *)
  Lemma tidy_run os : tidy base [] os = true ->
    J os /\ exists d, build os no_diff = Ok d /\ all_inv os d /\ Forall2 same (added d) (added_by os) /\
      Forall (fun v => spent os (n_name v)) (added_by os) /\ new_pk d = None /\
      describe (map view base) os = keep (map (fate os) (map view base)) ++ added_by os.
  Proof.
    induction os as [|o os IH] using rev_ind.
    - intros _. split; [apply J_empty|]. exists no_diff. split; [reflexivity|]. split; [|split; [constructor|split; [constructor|split; [reflexivity|]]]].
      + split; [intros k H; cbn in H; congruence|]. intros c Hc. unfold col_inv. cbn. auto.
      + cbn. rewrite app_nil_r. induction base as [|c r IH]; [reflexivity|]. cbn. unfold describe in *. cbn in *. f_equal.
        clear. induction r as [|c r IH]; [reflexivity|]. cbn. f_equal. exact IH.
    - rewrite tidy_snoc. intros H. apply andb_true_iff in H. destruct H as [H Ho]. rewrite app_nil_l in Ho.
      destruct (IH H) as [HJ [d [HB [HA [HD [HF [HP HE]]]]]]]. split; [apply J_snoc; assumption|].
      destruct (step_ok os o d HJ HA Ho) as [d' Hd]. exists d'. rewrite build_snoc, HB. split; [exact Hd|].
      split; [exact (step_inv os o d d' HJ HA Ho Hd)|].
      assert (HAD : Forall2 same (added d') (added_by (os ++ [o])) /\ new_pk d' = None).
      { rewrite added_snoc. destruct o as [n t r doc|n|n m|n t|n doc|n r]; cbn [sop_do] in Hd.
        - injection Hd as <-. split; [|exact HP]. cbn. apply Forall2_app; [exact HD|]. constructor; [apply same_added|constructor].
        - injection Hd as <-. rewrite app_nil_r. auto.
        - injection Hd as <-. rewrite app_nil_r. unfold rename_column. destruct (U d n); auto.
        - rewrite app_nil_r. unfold update_type in Hd. destruct (U d n) as [i|].
          + destruct (alias (u_ty i)); cbn in Hd; [|discriminate]. destruct (t_ext t); [discriminate|]. injection Hd as <-. auto.
          + injection Hd as <-. auto.
        - injection Hd as <-. rewrite app_nil_r. unfold update_doc. destruct (U d n); auto.
        - injection Hd as <-. rewrite app_nil_r. unfold update_required. destruct (U d n); auto. }
      destruct HAD as [HAD HP']. split; [exact HAD|].
      assert (HF' : Forall (fun v => spent (os ++ [o]) (n_name v)) (added_by (os ++ [o]))).
      { rewrite added_snoc. apply Forall_app. split.
        - apply (Forall_impl _ (fun v HS => spent_snoc os o (n_name v) Ho HS) HF).
        - destruct o as [n t r doc|n|n m|n t|n doc|n r]; constructor; [|constructor]. cbn [n_name].
          cbn in Ho. apply fresh_spec in Ho. destruct Ho as [F1 F2]. split; [exact F1|]. split.
          + rewrite mentions_snoc, in_app_iff. right. cbn. auto.
          + intros x Hx Hp. rewrite phase_snoc in Hp. apply phase1_moved in Hp. destruct Hp as [Hp|[_ HE2]]; [|discriminate].
            apply F2. apply (J_new _ HJ x n Hx Hp). }
      split; [exact HF'|]. split; [exact HP'|].
      rewrite describe_snoc, HE. unfold describe1. rewrite map_app, keep_app, keep_one, added_snoc, <- app_assoc. f_equal. f_equal.
      clear - HF Ho. induction HF as [|v l Hv HF IH]; [reflexivity|]. cbn [map].
      rewrite (one_out o v (spent_out os o _ Ho Hv)).
      change (keep (Some v :: map (one o) l)) with (v :: keep (map (one o) l)). rewrite IH. reflexivity.
  Qed.

  Lemma apply_one_fate os d c : all_inv os d -> In c base ->
    match fate os (view c) with
    | Some v => exists c', apply_one d c = Ok [c'] /\ same c' v
    | None => apply_one d c = Ok []
    end.
  Proof.
    intros [_ HI] Hc. specialize (HI c Hc). unfold col_inv in HI. cbv zeta in HI. pose proof (named c Hc) as Hnm.
    unfold apply_one, alias. rewrite Hnm. cbn [rbind x_alias].
    destruct (phase_of os (name_of c)) as [| |m| |].
    - destruct HI as [-> [-> [-> ->]]]. exists c. split; [reflexivity|]. unfold same, view. cbn. rewrite Hnm. auto.
    - destruct HI as [i [v [-> [_ [-> [-> [_ [_ [_ [c' [HC HS]]]]]]]]]]]. rewrite HC. exists c'. auto.
    - destruct HI as [i [v [-> [_ [-> [-> [-> [-> [_ [_ [c' [HC HS]]]]]]]]]]]]. rewrite HC. exists c'. auto.
    - destruct HI as [i [v [-> [-> [HU [[c' [HC HS]] _]]]]]]. destruct HU as [->|[m [-> [-> [-> _]]]]]; rewrite HC; exists c'; auto.
    - destruct HI as [-> ->]. reflexivity.
  Qed.

  Lemma apply_all_fate os d : all_inv os d -> forall l, incl l base ->
    exists cs, apply_all d l = Ok cs /\ Forall2 same cs (keep (map (fate os) (map view l))).
  Proof.
    intros HA. induction l as [|c l IH]; intros Hl; [exists []; split; [reflexivity|constructor]|].
    destruct IH as [cs [H1 H2]]; [intros x Hx; apply Hl; right; exact Hx|].
    pose proof (apply_one_fate os d c HA (Hl c (or_introl eq_refl))) as H. cbn [apply_all map].
    change (keep (fate os (view c) :: map (fate os) (map view l))) with
      ((match fate os (view c) with Some a => [a] | None => [] end) ++ keep (map (fate os) (map view l))).
    destruct (fate os (view c)) as [v|].
    - destruct H as [c' [-> HS]]. rewrite H1. cbn. eexists. split; [reflexivity|]. constructor; assumption.
    - rewrite H, H1. cbn. eexists. split; [reflexivity|]. exact H2.
  Qed.

  (** Names stay different. *)
  Lemma describe_names os : tidy base [] os = true ->
    NoDup (map n_name (describe (map view base) os)) /\
    forall v, In v (describe (map view base) os) -> In (n_name v) (names base) \/ In (n_name v) (flat_map mentions os).
  Proof.
    induction os as [|o os IH] using rev_ind.
    - intros _. cbn. rewrite map_map. change (fun x => n_name (view x)) with name_of. split; [apply Hsound|].
      intros v Hv. apply in_map_iff in Hv. destruct Hv as [c [<- Hc]]. left. change (n_name (view c)) with (name_of c). apply in_map. exact Hc.
    - rewrite tidy_snoc. intros H. apply andb_true_iff in H. destruct H as [H Ho]. rewrite app_nil_l in Ho.
      destruct (IH H) as [ND HI]. clear IH. rewrite describe_snoc. set (l := describe (map view base) os) in *.
      unfold describe1.
      assert (Hk : forall v', In v' (keep (map (one o) l)) <-> exists v, In v l /\ one o v = Some v').
      { intros v'. unfold keep. rewrite in_flat_map. split.
        - intros [x [Hx Hv]]. apply in_map_iff in Hx. destruct Hx as [v [<- Hin]]. exists v. split; [exact Hin|].
          destruct (one o v); [destruct Hv as [<-|[]]; reflexivity|destruct Hv].
        - intros [v [Hin HE]]. exists (one o v). split; [apply in_map; exact Hin|]. rewrite HE. left. reflexivity. }
      assert (Hnm : forall v v', one o v = Some v' -> n_name v' = n_name v \/ exists a b, o = Rename a b /\ n_name v = a /\ n_name v' = b).
      { intros v v' HE. destruct o as [n t r doc|n|n m|n t|n doc|n r]; cbn in HE.
        - injection HE as <-. auto.
        - destruct (beqb (n_name v) n); [discriminate|]. injection HE as <-. auto.
        - destruct (beqb_spec (n_name v) n); injection HE as <-; [right; exists n, m; auto|auto].
        - destruct (beqb (n_name v) n); injection HE as <-; auto.
        - destruct (beqb (n_name v) n); injection HE as <-; auto.
        - destruct (beqb (n_name v) n); injection HE as <-; auto. }
      assert (Hold : forall v, In v l -> ~ (fresh base os (n_name v) = true)).
      { intros v Hv HF. apply fresh_spec in HF. destruct (HI v Hv); tauto. }
      assert (HND : NoDup (map n_name (keep (map (one o) l)))).
      { revert ND Hold. clear - Hnm Ho. induction l as [|v l IH]; intros ND Hold; [constructor|].
        cbn [map] in ND. inversion ND as [|? ? Hn ND']; subst. cbn [map].
        change (keep (one o v :: map (one o) l)) with ((match one o v with Some a => [a] | None => [] end) ++ keep (map (one o) l)).
        specialize (IH ND' (fun x Hx => Hold x (or_intror Hx))).
        destruct (one o v) as [v'|] eqn:Ev; [|exact IH]. cbn. constructor; [|exact IH]. intros Hin.
        apply in_map_iff in Hin. destruct Hin as [u' [Hu1 Hu2]]. unfold keep in Hu2. apply in_flat_map in Hu2.
        destruct Hu2 as [x [Hx Hu2]]. apply in_map_iff in Hx. destruct Hx as [u [<- Hu]].
        destruct (one o u) as [u''|] eqn:Eu; [|destruct Hu2]. destruct Hu2 as [->|[]].
        apply Hnm in Ev, Eu. destruct Ev as [Ev|[a [b [Eo [Ea Eb]]]]], Eu as [Eu|[a' [b' [Eo' [Ea' Eb']]]]].
        - apply Hn. rewrite <- Ev, <- Hu1, Eu. apply in_map. exact Hu.
        - subst o. cbn in Ho. apply andb_true_iff in Ho. destruct Ho as [Ho _].
          apply (Hold v (or_introl eq_refl)). congruence.
        - subst o. cbn in Ho. apply andb_true_iff in Ho. destruct Ho as [Ho _].
          apply (Hold u (or_intror Hu)). congruence.
        - apply Hn. rewrite Eo in Eo'. injection Eo' as E1 E2. rewrite Ea, E1, <- Ea'. apply in_map. exact Hu. }
      assert (HIn : forall v', In v' (keep (map (one o) l)) -> In (n_name v') (names base) \/ In (n_name v') (flat_map mentions (os ++ [o]))).
      { intros v' Hv'. apply Hk in Hv'. destruct Hv' as [v [Hv HE]]. rewrite mentions_snoc, in_app_iff. apply Hnm in HE.
        destruct HE as [->|[a [b [-> [_ ->]]]]]; [destruct (HI v Hv); auto|]. right. right. cbn. auto. }
      destruct o as [n t r doc|n|n m|n t|n doc|n r]; try (rewrite app_nil_r; split; assumption).
      split.
      + rewrite map_app. cbn [map n_name]. apply NoDup_Add with (a := n) (l := map n_name (keep (map (one (Add n t r doc)) l))).
        * rewrite <- (app_nil_r (map n_name (keep (map (one (Add n t r doc)) l)))) at 1. apply Add_app.
        * split; [exact HND|]. intros Hin. apply in_map_iff in Hin. destruct Hin as [v' [<- Hv']]. apply Hk in Hv'.
          destruct Hv' as [v [Hv HE]]. injection HE as <-. apply (Hold v Hv). exact Ho.
      + intros v Hv. apply in_app_iff in Hv. destruct Hv as [Hv|[<-|[]]]; [apply HIn, Hv|].
        right. rewrite mentions_snoc, in_app_iff. right. cbn. auto.
  Qed.

  Lemma same_names cs : forall ds, Forall2 same cs ds -> names cs = map n_name ds /\ (forall c, In c cs -> exists x, t_ext (fst c) = Some x).
  Proof.
    induction cs as [|c cs IH]; intros ds H; inversion H as [|? d ? ds' H1 H2]; subst; [split; [reflexivity|intros ? []]|].
    destruct (IH _ H2) as [E1 E2]. destruct H1 as [Hx _]. split.
    - cbn [names map]. unfold name_of at 1. rewrite Hx. cbn. f_equal. exact E1.
    - intros c' [<-|Hc]; [eexists; exact Hx|apply E2, Hc].
  Qed.

  Lemma tidy_apply os s : s_cols s = base -> tidy base [] os = true ->
    exists d s', build os no_diff = Ok d /\ apply_diff d s = Ok s' /\
      Forall2 same (s_cols s') (describe (map view base) os) /\ s_pk s' = s_pk s /\ NoDup (names (s_cols s')).
  Proof.
    intros Hs Ht. destruct (tidy_run os Ht) as [_ [d [HB [HA [HD [_ [HP HE]]]]]]].
    destruct (apply_all_fate os d HA base (incl_refl _)) as [cs [H1 H2]]. exists d.
    assert (HS : Forall2 same (cs ++ added d) (describe (map view base) os)) by (rewrite HE; apply Forall2_app; assumption).
    destruct (same_names _ _ HS) as [N1 N2].
    destruct (make_error (cs ++ added d) (s_pk s) N2) as [s' [M1 [M2 [M3 _]]]]. exists s'.
    split; [exact HB|]. unfold apply_diff. rewrite Hs, H1, HP. cbn [rbind]. split; [exact M1|].
    rewrite M2, M3. split; [exact HS|]. split; [reflexivity|]. rewrite N1. apply (describe_names os Ht).
  Qed.

  (** Ids. *)
  Lemma one_id o v w : one o v = Some w -> n_id w = n_id v.
  Proof.
    destruct o as [n t r doc|n|n m|n t|n doc|n r]; cbn; intros H;
      try (destruct (beqb (n_name v) n)); try discriminate; injection H as <-; reflexivity.
  Qed.
  Lemma fate_id os v w : fate os v = Some w -> n_id w = n_id v.
  Proof.
    revert w. induction os as [|o os IH] using rev_ind; intros w H.
    - injection H as <-. reflexivity.
    - rewrite fate_snoc in H. destruct (fate os v) as [u|]; [|discriminate]. rewrite (one_id _ _ _ H). apply IH. reflexivity.
  Qed.
  Lemma kept_ids os l : NoDup (map n_id l) ->
    NoDup (map n_id (keep (map (fate os) l))) /\ incl (map n_id (keep (map (fate os) l))) (map n_id l).
  Proof.
    induction l as [|v l IH]; intros ND; [split; [constructor|apply incl_refl]|]. cbn [map] in *.
    inversion ND as [|? ? Hn ND']; subst. destruct (IH ND') as [I1 I2].
    change (keep (fate os v :: map (fate os) l)) with ((match fate os v with Some a => [a] | None => [] end) ++ keep (map (fate os) l)).
    destruct (fate os v) as [w|] eqn:E; cbn [app map].
    - rewrite (fate_id _ _ _ E). split.
      + constructor; [|exact I1]. intros H. apply Hn, I2, H.
      + intros x [<-|H]; [left; reflexivity|right; apply I2, H].
    - split; [exact I1|]. intros x H. right. apply I2, H.
  Qed.

  Definition idv (d : dcol) : N := match n_id d with Some i => i | None => 0%N end.
  Lemma same_ids cs : forall ds, Forall2 same cs ds -> ids cs = map idv ds.
  Proof.
    induction cs as [|c cs IH]; intros ds H; inversion H as [|? d ? ds' H1 H2]; subst; [reflexivity|].
    cbn. f_equal; [|apply IH, H2]. destruct H1 as [_ [_ [_ [_ H1]]]]. unfold idv. destruct (n_id d); exact H1.
  Qed.
  Lemma added_count os : length (added_by os) = n_adds os.
  Proof. induction os as [|o os IH]; [reflexivity|]. destruct o; cbn; try exact IH. f_equal. exact IH. Qed.
  Lemma added_none os d : In d (added_by os) -> n_id d = None.
  Proof.
    unfold added_by. rewrite in_flat_map. intros [o [_ H]]. destruct o; cbn in H; try contradiction. destruct H as [<-|[]]. reflexivity.
  Qed.

  Lemma tidy_valid os s d s' : s_cols s = base -> tidy base [] os = true ->
    NoDup (ids base) -> n_adds os <= 1 -> (n_adds os = 0 \/ ~ In 0%N (ids base)) ->
    (forall k, In k (s_pk s) -> exists v, In v (describe (map view base) os) /\ n_id v = Some k) ->
    build os no_diff = Ok d -> apply_diff d s = Ok s' -> s_err s' = None.
  Proof.
    intros Hs Ht Hid Hn Hz Hpk HB HA.
    destruct (tidy_apply os s Hs Ht) as [d0 [s0 [B0 [A0 [F0 [P0 N0]]]]]].
    rewrite HB in B0. injection B0 as <-. rewrite HA in A0. injection A0 as <-.
    destruct (tidy_run os Ht) as [_ [_ [_ [_ [_ [_ [_ HE]]]]]]].
    assert (HM : exists pk cs, make_schema cs pk = Ok s').
    { unfold apply_diff in HA. destruct (apply_all d (s_cols s)); cbn in HA; [|discriminate]. eexists _, _. exact HA. }
    destruct HM as [pk [cs HM]]. destruct (same_names _ _ F0) as [_ Hnamed].
    assert (Hcs : s_cols s' = cs /\ s_pk s' = pk).
    { unfold make_schema in HM. destruct (aliases cs); cbn in HM; [|discriminate]. injection HM as <-. auto. }
    destruct Hcs as [Hcs Hpk']. destruct (make_error (s_cols s') (s_pk s') Hnamed) as [s2 [M1 [_ [_ [M4 _]]]]].
    rewrite Hcs, Hpk', HM in M1. injection M1 as <-. apply M4. split; [exact N0|].
    rewrite (same_ids _ _ F0). split.
    - rewrite HE, map_app.
      destruct (kept_ids os (map view base)) as [K1 K2].
      { rewrite map_map. change (fun x => n_id (view x)) with (fun x : column => Some (d_id (snd x))).
        rewrite <- (map_map (fun x : column => d_id (snd x)) Some). apply FinFun.Injective_map_NoDup; [|exact Hid].
        intros a b E. congruence. }
      set (K := keep (map (fate os) (map view base))) in *.
      assert (KS : forall v, In v K -> exists i, n_id v = Some i /\ In i (ids base)).
      { intros v Hv. specialize (K2 (n_id v) (in_map n_id _ _ Hv)). rewrite map_map in K2. apply in_map_iff in K2.
        destruct K2 as [c [E Hc]]. exists (d_id (snd c)). split; [symmetry; exact E|]. apply (in_map (fun c => d_id (snd c))). exact Hc. }
      assert (KN : NoDup (map idv K)).
      { clear - K1 KS. induction K as [|v K IH]; [constructor|]. cbn in *. inversion K1 as [|? ? Hn K1']; subst.
        constructor; [|apply IH; [exact K1'|intros u Hu; apply KS; right; exact Hu]].
        intros Hin. apply in_map_iff in Hin. destruct Hin as [u [E Hu]]. apply Hn.
        destruct (KS v (or_introl eq_refl)) as [i [Ei _]], (KS u (or_intror Hu)) as [j [Ej _]].
        unfold idv in E. rewrite Ei, Ej in E. subst j. rewrite Ei, <- Ej. apply in_map. exact Hu. }
      pose proof (added_count os) as HC. destruct (added_by os) as [|a [|b r]] eqn:Ea; cbn [map].
      + rewrite app_nil_r. exact KN.
      + apply NoDup_Add with (a := idv a) (l := map idv K).
        * rewrite <- (app_nil_r (map idv K)) at 1. apply Add_app.
        * split; [exact KN|]. intros Hin. apply in_map_iff in Hin. destruct Hin as [v [E Hv]].
          destruct (KS v Hv) as [i [Ei Hi]]. unfold idv in E. rewrite Ei in E.
          rewrite (added_none os a) in E by (rewrite Ea; left; reflexivity). subst i.
          destruct Hz as [Hz|Hz]; [cbn in HC; lia|contradiction].
      + cbn in HC. lia.
    - rewrite P0. intros k Hk. destruct (Hpk k Hk) as [v [Hv Hi]]. apply in_map_iff. exists v. split; [|exact Hv].
      unfold idv. rewrite Hi. reflexivity.
  Qed.
End Tidy.

(** ** Looking columns up *)
Lemma lookup_spec s k : (forall c, In c (s_cols s) -> exists x, t_ext (fst c) = Some x) ->
  match lookup_idx s k with
  | Ok (Some i) => exists c, nth_error (s_cols s) i = Some c /\ matches k c /\
                     forall j c', j < i -> nth_error (s_cols s) j = Some c' -> ~ matches k c'
  | Ok None => forall c, In c (s_cols s) -> ~ matches k c
  | Err _ => False
  end.
Proof.
  unfold lookup_idx. generalize (s_cols s) as cs. intros cs H. destruct k as [i|a].
  - induction cs as [|c cs IH]; cbn; [intros c []|]. destruct (N.eqb_spec (d_id (snd c)) i) as [E|E].
    + exists c. split; [reflexivity|]. split; [exact E|]. intros j c' Hj. lia.
    + specialize (IH (fun x Hx => H x (or_intror Hx))). cbn in IH. destruct (idx_by_id cs i) as [j|]; cbn.
      * destruct IH as [c' [I1 [I2 I3]]]. exists c'. split; [exact I1|]. split; [exact I2|].
        intros [|j'] c'' Hj Hc; [cbn in Hc; injection Hc as <-; exact E|]. apply (I3 j'); [lia|exact Hc].
      * intros c' [<-|Hc]; [exact E|apply IH, Hc].
  - induction cs as [|c cs IH]; cbn; [intros c []|]. destruct (H c (or_introl eq_refl)) as [x Hx].
    assert (Hnm : alias (fst c) = Ok (name_of c)) by (unfold alias, name_of; rewrite Hx; reflexivity).
    rewrite Hnm. cbn [rbind]. destruct (beqb_spec (name_of c) a) as [E|E].
    + exists c. split; [reflexivity|]. split; [exact E|]. intros j c' Hj. lia.
    + specialize (IH (fun y Hy => H y (or_intror Hy))). destruct (idx_by_name cs a) as [[j|]|]; cbn in *; [| |contradiction].
      * destruct IH as [c' [I1 [I2 I3]]]. exists c'. split; [exact I1|]. split; [exact I2|].
        intros [|j'] c'' Hj Hc; [cbn in Hc; injection Hc as <-; exact E|]. apply (I3 j'); [lia|exact Hc].
      * intros c' [<-|Hc]; [exact E|apply IH, Hc].
Qed.

Lemma find_present s k c : (forall c, In c (s_cols s) -> exists x, t_ext (fst c) = Some x) -> s_err s = None ->
  In c (s_cols s) -> matches k c ->
  exists c' i, find_field s k = Ok (s, Some c') /\ nth_error (s_cols s) i = Some c' /\ matches k c' /\
    forall j c'', j < i -> nth_error (s_cols s) j = Some c'' -> ~ matches k c''.
Proof.
  intros Hn He Hc Hm. pose proof (lookup_spec s k Hn) as HL. unfold find_field.
  destruct (lookup_idx s k) as [[i|]|]; [| |contradiction]; cbn [rbind].
  - destruct HL as [c' [H1 [H2 H3]]]. rewrite He, H1. exists c', i. auto.
  - exfalso. exact (HL c Hc Hm).
Qed.

Lemma lookups_present s : (forall c, In c (s_cols s) -> exists x, t_ext (fst c) = Some x) -> s_err s = None ->
  forall ks, (forall k, In k ks -> exists c, In c (s_cols s) /\ matches k c) ->
  exists cs, lookups s ks = Ok (map Some cs) /\ Forall2 (fun k c => In c (s_cols s) /\ matches k c) ks cs.
Proof.
  intros Hn He. induction ks as [|k r IH]; intros Hk; [exists []; split; [reflexivity|constructor]|].
  destruct (Hk k (or_introl eq_refl)) as [c [Hc Hm]]. destruct (find_present s k c Hn He Hc Hm) as [c' [i [HF [Hi [Hm' _]]]]].
  destruct IH as [cs [H1 H2]]; [intros k' Hk'; apply Hk; right; exact Hk'|].
  exists (c' :: cs). cbn [lookups]. rewrite HF. cbn [rbind]. rewrite H1. cbn. split; [reflexivity|].
  constructor; [|exact H2]. split; [exact (nth_error_In _ _ Hi)|exact Hm'].
Qed.

Lemma lookups_poisoned ks : forall s, (forall c, In c (s_cols s) -> exists x, t_ext (fst c) = Some x) -> s_err s <> None ->
  lookups s ks = Ok (map (fun _ => None) ks).
Proof.
  induction ks as [|k r IH]; intros s Hn He; [reflexivity|]. cbn [lookups]. unfold find_field at 1.
  pose proof (lookup_spec s k Hn) as HL. destruct (lookup_idx s k) as [[i|]|]; [| |contradiction]; cbn [rbind].
  - destruct (s_err s) eqn:E; [|congruence]. cbn [rbind]. rewrite IH; [reflexivity|exact Hn|congruence].
  - cbn [rbind]. rewrite IH; [reflexivity|exact Hn|discriminate].
Qed.

Lemma missing_poisons s k ks : (forall c, In c (s_cols s) -> exists x, t_ext (fst c) = Some x) ->
  (forall c, In c (s_cols s) -> ~ matches k c) -> lookups s (k :: ks) = Ok (map (fun _ => None) (k :: ks)).
Proof.
  intros Hn Hm. cbn [lookups]. unfold find_field at 1. pose proof (lookup_spec s k Hn) as HL.
  destruct (lookup_idx s k) as [[i|]|]; [| |contradiction]; cbn [rbind].
  - destruct HL as [c [H1 [H2 _]]]. exfalso. exact (Hm c (nth_error_In _ _ H1) H2).
  - rewrite lookups_poisoned; [reflexivity|exact Hn|discriminate].
Qed.
