(** Histories that are computed. *)
From Coq Require Import List NArith ZArith Bool.
From Verif Require Import Bytes Outcome.
From Verif Require Import QueryModel CrashModel CrashSpec CrashProofs.
Import ListNotations.

Local Arguments mem_N : simpl never.
Local Arguments set_at : simpl never.

Definition state_after (es : list event) : sys := match run fresh es with Ok s => s | Err _ => fresh end.
Definition fine (es : list event) : bool := match run fresh es with Ok _ => true | Err _ => false end.
Lemma state_ok es : fine es = true -> run fresh es = Ok (state_after es).
Proof. unfold fine, state_after. destruct (run fresh es); [reflexivity|discriminate]. Qed.
Ltac found :=
  split; [apply state_ok; vm_compute; reflexivity|];
  repeat (split; [first [vm_compute; reflexivity|vm_compute; discriminate]|]); first [vm_compute; reflexivity|vm_compute; discriminate].

Lemma run_cons (P : sys -> Prop) s e es s1 :
  step s e = Ok s1 -> (exists s', run s1 es = Ok s' /\ P s') -> exists s', run s (e :: es) = Ok s' /\ P s'.
Proof. intros H (s' & R & p). exists s'. split; [|exact p]. change (run s (e :: es)) with (rbind (step s e) (fun s' => run s' es)). rewrite H. exact R. Qed.

Ltac state := cbv beta iota delta [step disp exec log tell flush answered with_cat with_store with_exq with_mail with_log with_agent
  s_cat s_store s_exq s_mail s_walq s_wal s_agent s_disk s_acked s_last c_dbs c_tabs update_catalog]; cbn [app map].

Lemma drop_create s c l : idle s = true -> has_coll (s_cat s) c = true -> s_store s c = Some l ->
  exists s', run s (go (DropColl c) ++ go (CreateColl c)) = Ok s' /\ s_acked s' = s_acked s ++ [DropColl c; CreateColl c] /\
    same (visible s' c) (Some (fun _ => None)) /\ forall c', c' <> c -> visible s' c' = visible s c'.
Proof.
  intros ID H S. destruct s as [[db tb] st exq mail walq wal ag dk ac la]. unfold idle in ID. cbn [s_mail s_exq s_walq s_cat s_store] in *.
  destruct mail; [|discriminate]. destruct exq; [|discriminate]. destruct walq; [|discriminate].
  unfold has_coll in H. cbn [c_dbs c_tabs] in H. apply andb_true_iff in H. destruct H as [M T].
  match goal with |- exists s', _ /\ @?Q s' => set (P := Q) end.
  change (exists s', run {| s_cat := {| c_dbs := db; c_tabs := tb |}; s_store := st; s_exq := []; s_mail := []; s_walq := []; s_wal := wal;
    s_agent := ag; s_disk := dk; s_acked := ac; s_last := la |} (go (DropColl c) ++ go (CreateColl c)) = Ok s' /\ P s').
  unfold go. cbn [app].
  eapply run_cons; [state; reflexivity|].
  eapply run_cons; [state; unfold dispatch, check, has_coll; state; rewrite M, T; cbn [andb]; rewrite S; state; reflexivity|].
  do 5 (eapply run_cons; [state; reflexivity|]).
  eapply run_cons; [state; unfold dispatch, check, has_coll; state; rewrite M, !set_at_eq; cbn [andb negb]; state; reflexivity|].
  do 4 (eapply run_cons; [state; reflexivity|]).
  eexists. split; [reflexivity|]. unfold P, visible, has_coll. state.
  rewrite M. split; [rewrite <- app_assoc; reflexivity|]. split.
  - rewrite !set_at_eq. cbn. intros i. reflexivity.
  - intros c' N. rewrite !set_at_neq by congruence. reflexivity.
Qed.
