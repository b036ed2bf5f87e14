From Verif Require Import Bytes Outcome CreModel CreSpec CreProofs CixModel CixSpec.
From Coq Require Import Lia.

Lemma keys_fields : forall ks, keys_of (map Field ks) = Ok ks.
Proof. induction ks as [|k ks IH]; [reflexivity|]. cbn [map keys_of]. rewrite IH. reflexivity. Qed.
Lemma asked : forall s p, asks s p -> in_database s -> transform s = Ok p.
Proof.
  intros s p A. destruct A as [n|n|q els f cs N D B|q f N|q i ks f N|q i f N]; intros I; cbn [transform].
  - reflexivity.
  - reflexivity.
  - rewrite (created q els cs f D B N). reflexivity.
  - rewrite (dropped q f N). reflexivity.
  - cbn [in_database relation] in I. unfold create_index. cbn [relation idxname params].
    rewrite keys_fields. destruct N as (u & d & s & -> & N).
    destruct q as [|a [|b [|c [|e [|? ?]]]]]; try (destruct N; fail); try (now elim I);
      cbn [relname catalogname rbind range_var last]; destruct N as (-> & -> & ->); reflexivity.
  - rewrite (index_dropped q f i N); [reflexivity|]. cbn [in_database] in I. rewrite app_length in I. cbn [length] in I.
    destruct N as (u & d & s & _ & N). destruct q as [|a [|b q]]; [destruct N|cbn [length] in I; lia|cbn [length]; lia].
Qed.
(** two statements asked for by the same plan are the same, up to the way tables are declared *)
Lemma asks_names : forall q q' i i' ks ks' f,
  Forall (fun x => x <> []) q -> Forall (fun x => x <> []) q' ->
  transform (CreateIndex {| unique := false; idxname := Some i; relation := q; params := map Field ks; where_clause := false |}) = Ok f ->
  transform (CreateIndex {| unique := false; idxname := Some i'; relation := q'; params := map Field ks'; where_clause := false |}) = Ok f ->
  q = q' /\ i = i' /\ ks = ks'.
Proof.
  intros q q' i i' ks ks' f E E' A B. cbn [transform] in *. unfold create_index in *. cbn [relation idxname params] in *.
  rewrite keys_fields in A, B. cbn [rbind] in A, B.
  destruct q as [|a [|b [|c [|e [|? ?]]]]]; cbn [relname catalogname range_var] in A; try discriminate;
  destruct q' as [|a' [|b' [|c' [|e' [|? ?]]]]]; cbn [relname catalogname range_var] in B; try discriminate;
  injection A as <-; injection B as; subst; try (repeat split; reflexivity);
  exfalso; repeat match goal with H : Forall _ (_ :: _) |- _ => inversion H; subst; clear H end; congruence.
Qed.
