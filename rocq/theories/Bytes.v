(** Bytes and big-endian integers.  Shared vocabulary of the byte-level models.
    A byte is an [ascii], so every [list byte] is a legal byte string. *)
From Coq Require Export String Ascii NArith ZArith Bool Lia List.
From Coq Require Import ZifyBool ZifyNat ZifyN.
Export ListNotations.
Ltac Zify.zify_post_hook ::= Z.div_mod_to_equations.

Definition byte := ascii.

(** [byte_of_N n]: the C++ conversion [char(n)] / [uint8_t(n)], i.e. reduction modulo 256. *)
Definition byte_of_N (n : N) : byte := ascii_of_N (n mod 256).
Definition N_of_byte (b : byte) : N := N_of_ascii b.

Lemma N_of_byte_of_N n : N_of_byte (byte_of_N n) = (n mod 256)%N.
Proof.
  unfold N_of_byte, byte_of_N. apply N_ascii_embedding.
  apply N.mod_lt; discriminate.
Qed.

Lemma byte_of_N_of_byte b : byte_of_N (N_of_byte b) = b.
Proof.
  unfold N_of_byte, byte_of_N.
  rewrite N.mod_small.
  - apply ascii_N_embedding.
  - apply N_ascii_bounded.
Qed.

Lemma N_of_byte_lt b : (N_of_byte b < 256)%N.
Proof. apply N_ascii_bounded. Qed.

Lemma byte_of_N_mod n : byte_of_N (n mod 256) = byte_of_N n.
Proof. unfold byte_of_N. rewrite N.mod_mod by discriminate. reflexivity. Qed.

(** Big-endian encoding of the low [k] bytes of [n]. *)
Fixpoint be (k : nat) (n : N) : list byte :=
  match k with
  | O => []
  | S k' => byte_of_N (n / 256 ^ N.of_nat k') :: be k' n
  end.

(** Big-endian reading of a byte string. *)
Definition unbe (l : list byte) : N := fold_left (fun a b => a * 256 + N_of_byte b)%N l 0%N.

(** Take exactly [n] bytes. *)
Fixpoint take (n : nat) (l : list byte) : option (list byte * list byte) :=
  match n, l with
  | O, _ => Some ([], l)
  | S n', b :: r => match take n' r with Some (a, t) => Some (b :: a, t) | None => None end
  | S _, [] => None
  end.

Lemma be_length k n : List.length (be k n) = k.
Proof. induction k as [|k IH]; simpl; congruence. Qed.

Lemma unbe_app l b : unbe (l ++ [b]) = (unbe l * 256 + N_of_byte b)%N.
Proof. unfold unbe. rewrite fold_left_app. reflexivity. Qed.

Lemma fold_unbe_acc l a :
  fold_left (fun a b => a * 256 + N_of_byte b)%N l a
  = (a * 256 ^ N.of_nat (List.length l) + unbe l)%N.
Proof.
  unfold unbe. revert a. induction l as [|b l IH]; intro a.
  - cbn. lia.
  - cbn [fold_left List.length]. rewrite IH, (IH (0 * 256 + _)%N).
    rewrite Nat2N.inj_succ, N.pow_succ_r'. lia.
Qed.

Lemma unbe_cons b l : unbe (b :: l) = (N_of_byte b * 256 ^ N.of_nat (List.length l) + unbe l)%N.
Proof. unfold unbe at 1. cbn [fold_left]. rewrite fold_unbe_acc. lia. Qed.

Lemma unbe_be k n : unbe (be k n) = (n mod 256 ^ N.of_nat k)%N.
Proof.
  induction k as [|k IH].
  - cbn. rewrite N.mod_1_r. reflexivity.
  - cbn [be]. rewrite unbe_cons, be_length, IH, N_of_byte_of_N.
    rewrite Nat2N.inj_succ, N.pow_succ_r'.
    set (p := (256 ^ N.of_nat k)%N).
    assert (Hp : p <> 0%N) by (apply N.pow_nonzero; discriminate).
    rewrite (N.mul_comm 256 p), N.mod_mul_r by (auto; discriminate). lia.
Qed.

Lemma unbe_lt l : (unbe l < 256 ^ N.of_nat (List.length l))%N.
Proof.
  induction l as [|b l IH].
  - reflexivity.
  - rewrite unbe_cons. cbn [List.length]. rewrite Nat2N.inj_succ, N.pow_succ_r'.
    pose proof (N_of_byte_lt b). nia.
Qed.

Lemma be_unbe l : be (List.length l) (unbe l) = l.
Proof.
  assert (G : forall k n m, (be k (n * 256 ^ N.of_nat k + m) = be k m)%N).
  { induction k as [|k IHk]; intros n m; cbn [be]; [reflexivity|].
    rewrite Nat2N.inj_succ, N.pow_succ_r'. set (p := (256 ^ N.of_nat k)%N).
    assert (Hp : p <> 0%N) by (apply N.pow_nonzero; discriminate).
    f_equal.
    - rewrite <- byte_of_N_mod, <- (byte_of_N_mod (m / p)). f_equal.
      replace (n * (256 * p) + m)%N with (m + (n * 256) * p)%N by lia.
      rewrite N.div_add by exact Hp. rewrite N.mod_add by discriminate. reflexivity.
    - replace (n * (256 * p) + m)%N with ((n * 256) * p + m)%N by lia. apply IHk. }
  induction l as [|b l IH]; [reflexivity|].
  cbn [List.length be]. rewrite unbe_cons.
  pose proof (unbe_lt l) as HL. set (p := (256 ^ N.of_nat (List.length l))%N) in *.
  assert (Hp : p <> 0%N) by (apply N.pow_nonzero; discriminate).
  f_equal.
  - replace (N_of_byte b * p + unbe l)%N with (unbe l + N_of_byte b * p)%N by lia.
    rewrite N.div_add, N.div_small by (auto). cbn. apply byte_of_N_of_byte.
  - rewrite G. exact IH.
Qed.

Lemma take_app a r : take (List.length a) (a ++ r) = Some (a, r).
Proof. induction a as [|b a IH]; simpl; [reflexivity|rewrite IH; reflexivity]. Qed.

Lemma take_app' n a r : n = List.length a -> take n (a ++ r) = Some (a, r).
Proof. intros ->. apply take_app. Qed.

Lemma take_Some n l a r : take n l = Some (a, r) -> l = a ++ r /\ List.length a = n.
Proof.
  revert l a r. induction n as [|n IH]; intros l a r H; cbn in H.
  - injection H as <- <-. split; reflexivity.
  - destruct l as [|b l]; [discriminate|]. destruct (take n l) as [[x y]|] eqn:E; [|discriminate].
    injection H as <- <-. destruct (IH _ _ _ E) as [-> <-]. split; reflexivity.
Qed.

(** Character literals for use in models. *)
Definition str (s : string) : list byte := list_ascii_of_string s.
