From Coq Require Import Permutation Lia.
From Verif Require Import Bytes Outcome CurModel CurSpec.
Local Open Scope Z_scope.

Section P.
Context {D : Type}.
Definition at_ (l : list D) (k : nat) : cursor D := {| size := N.of_nat (length l); index := Z.of_nat k - 1; docs := l |}.
Lemma big : 2 ^ 31 < 2 ^ 64. Proof. reflexivity. Qed.
Lemma as_size_nat : forall k, Z.of_nat k < 2 ^ 31 -> as_size (Z.of_nat k) = N.of_nat k.
Proof. intros k H. unfold as_size. rewrite Z.mod_small by (pose proof big; lia). lia. Qed.
Lemma document_nat : forall l k i, document_at (at_ l k) (N.of_nat i) = Ok (nth_error l i).
Proof.
  intros l k i. unfold document_at, at_. cbn [size docs]. rewrite Nat2N.id. destruct (N.ltb_spec (N.of_nat i) (N.of_nat (length l))).
  - destruct (nth_error l i) eqn:E; [reflexivity|]. apply nth_error_None in E. lia.
  - assert (E : nth_error l i = None) by (apply nth_error_None; lia). now rewrite E.
Qed.
Lemma following_nat : forall k, Z.of_nat k < 2 ^ 31 -> following (Z.of_nat k - 1) = Ok (Z.of_nat k).
Proof. intros k H. unfold following. destruct (Z.eqb_spec (Z.of_nat k - 1) (2 ^ 31 - 1)); [lia|]. f_equal. lia. Qed.
Lemma runs : forall xs l k, Forall allowed xs -> Z.of_nat (k + length xs) <= 2 ^ 31 -> Z.of_nat (length l) < 2 ^ 31 ->
  run (at_ l k) xs = Ok (answers l k xs).
Proof.
  induction xs as [|x xs IH]; intros l k F K L; [reflexivity|]. inversion F as [|? ? A F']; subst.
  cbn [length] in K. cbn [run]. destruct x as [| | | |i|f]; cbn [step answers].
  - cbn [rbind]. rewrite IH by (assumption || lia). cbn [rbind at_ size]. unfold as_int.
    rewrite nat_N_Z. assert (B : 2 ^ 31 < 2 ^ 32) by reflexivity. rewrite Z.mod_small by lia.
    destruct (Z.ltb_spec (Z.of_nat (length l)) (2 ^ 31)); [reflexivity|lia].
  - unfold has_next. cbn [at_ index size]. rewrite following_nat by lia. cbn [rbind]. rewrite as_size_nat by lia.
    change {| size := N.of_nat (length l); index := Z.of_nat k - 1; docs := l |} with (at_ l k). rewrite IH by (assumption || lia).
    cbn [rbind]. do 3 f_equal. destruct (N.ltb_spec (N.of_nat k) (N.of_nat (length l))), (Nat.ltb_spec k (length l)); try reflexivity; lia.
  - unfold next_document. cbn [at_ index size docs]. rewrite following_nat by lia. cbn [rbind]. rewrite as_size_nat by lia.
    replace {| size := N.of_nat (length l); index := Z.of_nat k; docs := l |} with (at_ l (S k)) by (unfold at_; f_equal; lia).
    rewrite document_nat. cbn [rbind]. rewrite IH by (assumption || lia). reflexivity.
  - unfold get_document. cbn [at_ index].
    replace (if Z.of_nat k - 1 <? 0 then 0 else Z.of_nat k - 1) with (Z.of_nat (Nat.pred k))
      by (destruct (Z.ltb_spec (Z.of_nat k - 1) 0); lia).
    rewrite as_size_nat by lia. change {| size := N.of_nat (length l); index := Z.of_nat k - 1; docs := l |} with (at_ l k).
    rewrite document_nat. cbn [rbind]. rewrite IH by (assumption || lia). reflexivity.
  - cbn [allowed] in A. destruct (Z.ltb_spec i 0) as [N|N].
    + assert (E : document_at (at_ l k) (as_size i) = Ok None).
      { unfold document_at. cbn [at_ size]. destruct (N.ltb_spec (as_size i) (N.of_nat (length l))) as [H|H]; [|reflexivity].
        exfalso. unfold as_size in H. assert (B : 2 ^ 64 = 2 ^ 31 * 2 ^ 33) by reflexivity. assert (B' : 2 ^ 33 = 8589934592) by reflexivity.
        assert (B'' : 2 ^ 31 = 2147483648) by reflexivity.
        assert (M : i mod 2 ^ 64 = i + 2 ^ 64) by (symmetry; apply Z.mod_unique with (q := -1); lia). rewrite M in H. lia. }
      rewrite E. cbn [rbind]. rewrite IH by (assumption || lia). reflexivity.
    + assert (E : document_at (at_ l k) (as_size i) = Ok (nth_error l (Z.to_nat i))).
      { rewrite <- (Z2Nat.id i N) at 1. rewrite as_size_nat by (rewrite Z2Nat.id; lia). apply document_nat. }
      rewrite E. cbn [rbind]. rewrite IH by (assumption || lia). reflexivity.
  - cbn [allowed] in A. cbn [rbind].
    assert (E : sort f (at_ l k) = at_ (f l) 0) by (unfold sort, at_; cbn [size docs]; f_equal; now rewrite (Permutation_length (A l))).
    rewrite E, IH; [reflexivity|assumption|lia|]. now rewrite (Permutation_length (A l)).
Qed.
End P.

Lemma started : forall D (l : list D) xs, Forall allowed xs -> Z.of_nat (length xs) <= 2 ^ 31 -> Z.of_nat (length l) < 2 ^ 31 ->
  run (of_documents l) xs = Ok (answers l 0 xs).
Proof. intros D l xs A X L. exact (runs xs l 0 A X L). Qed.

Lemma no_zero : forall s, ~ In zero s -> up_to_zero s = s.
Proof.
  induction s as [|c s IH]; intros H; [reflexivity|]. cbn [up_to_zero]. destruct (Ascii.eqb_spec c zero) as [->|_].
  - elim H. now left.
  - rewrite IH; [reflexivity|]. intros I. apply H. now right.
Qed.
Lemma texts : forall n s, ~ In zero s -> text n s = if Nat.ltb (length s) n then Ok s else Err UB.
Proof. intros n s H. unfold text. now rewrite no_zero. Qed.
Lemma text_exact : forall n s, text n s = Ok s <-> ~ In zero s /\ (length s < n)%nat.
Proof.
  intros n s. split.
  - intros H. assert (Z : up_to_zero s = s) by (unfold text in H; destruct (_ <? _)%nat; [now injection H|discriminate]).
    split.
    + clear H. induction s as [|c s IH]; intros I; [destruct I|]. cbn [up_to_zero] in Z. destruct (Ascii.eqb_spec c zero) as [E|E]; [discriminate|].
      injection Z as Z. destruct I as [I|I]; [now elim E|now apply IH].
    + unfold text in H. rewrite Z in H. destruct (Nat.ltb_spec (length s) n); [assumption|discriminate].
  - intros (Z & L). rewrite texts by assumption. destruct (Nat.ltb_spec (length s) n); [reflexivity|lia].
Qed.
