(** Lexicographic order of byte strings ([std::string::compare], char_traits<char>: unsigned bytes). *)
From Verif Require Import Bytes.

Definition bytecmp (a b : byte) : comparison := N.compare (N_of_byte a) (N_of_byte b).

Fixpoint bcmp (a b : list byte) : comparison :=
  match a, b with
  | [], [] => Eq
  | [], _ => Lt
  | _, [] => Gt
  | x :: a', y :: b' => match bytecmp x y with Eq => bcmp a' b' | c => c end
  end.

Definition beqb (a b : list byte) : bool := match bcmp a b with Eq => true | _ => false end.
Definition bltb (a b : list byte) : bool := match bcmp a b with Lt => true | _ => false end.

Lemma bytecmp_eq a b : bytecmp a b = Eq <-> a = b.
Proof.
  unfold bytecmp. rewrite N.compare_eq_iff. split; [|congruence].
  intros H. rewrite <- (byte_of_N_of_byte a), <- (byte_of_N_of_byte b), H. reflexivity.
Qed.

Lemma bytecmp_sym a b : bytecmp b a = CompOpp (bytecmp a b).
Proof. apply N.compare_antisym. Qed.

Lemma bytecmp_trans a b c : bytecmp a b = Lt -> bytecmp b c = Lt -> bytecmp a c = Lt.
Proof. unfold bytecmp. rewrite !N.compare_lt_iff. lia. Qed.

Lemma bcmp_eq a b : bcmp a b = Eq <-> a = b.
Proof.
  revert b. induction a as [|x a IH]; intros [|y b]; cbn; try (split; congruence).
  destruct (bytecmp x y) eqn:E.
  - apply bytecmp_eq in E. subst. rewrite IH. split; congruence.
  - split; [discriminate|]. intros [= -> ->]. rewrite (proj2 (bytecmp_eq y y) eq_refl) in E. discriminate.
  - split; [discriminate|]. intros [= -> ->]. rewrite (proj2 (bytecmp_eq y y) eq_refl) in E. discriminate.
Qed.

Lemma bcmp_sym a b : bcmp b a = CompOpp (bcmp a b).
Proof.
  revert b. induction a as [|x a IH]; intros [|y b]; cbn; try reflexivity.
  rewrite (bytecmp_sym x y). destruct (bytecmp x y); cbn; auto.
Qed.

Lemma bcmp_trans a b c : bcmp a b = Lt -> bcmp b c = Lt -> bcmp a c = Lt.
Proof.
  revert b c. induction a as [|x a IH]; intros [|y b] [|z c]; cbn; try congruence.
  destruct (bytecmp x y) eqn:E1; [| |discriminate].
  - apply bytecmp_eq in E1. subst. destruct (bytecmp y z); intros; try congruence. eapply IH; eassumption.
  - intros _. destruct (bytecmp y z) eqn:E2; [| |discriminate].
    + apply bytecmp_eq in E2. subst. rewrite E1. reflexivity.
    + intros _. rewrite (bytecmp_trans _ _ _ E1 E2). reflexivity.
Qed.

Lemma bcmp_refl a : bcmp a a = Eq.
Proof. apply bcmp_eq. reflexivity. Qed.

Lemma beqb_eq a b : beqb a b = true <-> a = b.
Proof. unfold beqb. rewrite <- bcmp_eq. destruct (bcmp a b); split; congruence. Qed.

Lemma beqb_spec a b : reflect (a = b) (beqb a b).
Proof. apply iff_reflect. symmetry. apply beqb_eq. Qed.

Lemma beqb_refl a : beqb a a = true.
Proof. apply beqb_eq. reflexivity. Qed.
