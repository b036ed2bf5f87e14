From Verif Require Import Bytes Outcome TIdModel TIdSpec.
From Coq Require Import Lia.

Lemma c_str_plain : forall s, without zero s -> c_str s = s.
Proof.
  induction s as [|c s IH]; intros H; [reflexivity|]. cbn [c_str]. destruct (Ascii.eqb_spec c zero) as [->|_].
  - elim H. now left.
  - rewrite IH; [reflexivity|]. intros I. apply H. now right.
Qed.
Lemma back : forall f, plain_name f -> (to_full (of_full f) = f <-> (uid f = [] /\ schema f = []) \/ schema f = database f).
Proof.
  intros [u d s c] (U & D & S & C). cbn [uid database schema collection] in *.
  pose proof (c_str_plain u U) as EU. pose proof (c_str_plain d D) as ED. pose proof (c_str_plain s S) as ES. pose proof (c_str_plain c C) as EC.
  unfold to_full, of_full. cbn [namespace table_name uid database schema collection].
  assert (TU : forall x, without zero x -> c_str (c_str x) = x) by (intros x X; now rewrite !c_str_plain by (try assumption; now rewrite c_str_plain)).
  destruct u as [|u0 u], s as [|s0 s]; cbn [is_empty negb orb app]; cbn [map app rev]; rewrite ?TU, ?EC by assumption; cbn [c_str].
  - split; [now left|reflexivity].
  - split; [intros E; injection E as E1 E2; right; congruence|intros [[_ E]|E]; [discriminate|now rewrite E]].
  - split; [intros E; injection E as E1 E2; right; congruence|intros [[E _]|E]; [discriminate|now rewrite <- E]].
  - split; [intros E; injection E as E1 E2; right; congruence|intros [[E _]|E]; [discriminate|now rewrite E]].
Qed.
Lemma apart : forall f g, plain_name f -> plain_name g -> of_full f = of_full g -> f = g.
Proof.
  intros [u d s c] [u' d' s' c'] (U & D & S & C) (U' & D' & S' & C') E. cbn [uid database schema collection] in *.
  unfold of_full in E. cbn [uid database schema collection] in E.
  rewrite (c_str_plain u U), (c_str_plain d D), (c_str_plain s S), (c_str_plain u' U'), (c_str_plain d' D'), (c_str_plain s' S') in E.
  destruct u, s, u', s'; cbn [is_empty negb orb app] in E; injection E as; subst; try reflexivity; congruence.
Qed.

Lemma split_part : forall s p r, without dot s -> split p (s ++ dot :: r) = (p ++ s) :: split [] r.
Proof.
  induction s as [|c s IH]; intros p r H.
  - cbn [app split]. destruct (Ascii.eqb_spec dot dot) as [_|N]; [now rewrite app_nil_r|now elim N].
  - cbn [app split]. destruct (Ascii.eqb_spec c dot) as [->|_]; [elim H; now left|].
    rewrite IH by (intros I; apply H; now right). now rewrite <- app_assoc.
Qed.
Lemma split_last : forall s p, without dot s -> p ++ s <> [] -> split p s = [p ++ s].
Proof.
  induction s as [|c s IH]; intros p H N.
  - rewrite app_nil_r in *. cbn [split]. destruct p; [now elim N|reflexivity].
  - cbn [split]. destruct (Ascii.eqb_spec c dot) as [->|_]; [elim H; now left|].
    rewrite IH; [now rewrite <- app_assoc|intros I; apply H; now right|]. rewrite <- app_assoc. exact N.
Qed.
Lemma split_joined : forall ps n, ps <> [] -> Forall (without dot) ps -> without dot n -> n <> [] ->
  split [] (joined ps ++ dot :: n) = ps ++ [n].
Proof.
  induction ps as [|p ps IH]; intros n N F D E; [now elim N|]. inversion F as [|? ? P F']; subst.
  destruct ps as [|q ps].
  - cbn [joined]. rewrite split_part by assumption. cbn [app]. now rewrite split_last.
  - change (joined (p :: q :: ps)) with (p ++ dot :: joined (q :: ps)). rewrite <- app_assoc. change ((dot :: joined (q :: ps)) ++ dot :: n) with (dot :: (joined (q :: ps) ++ dot :: n)).
    rewrite split_part by assumption. rewrite IH; [reflexivity|discriminate|assumption|assumption|assumption].
Qed.
Lemma read_back : forall t, readable t -> parse (to_string t) = Ok t.
Proof.
  intros [ns n] (N & F & D & E). cbn [namespace table_name] in *. unfold parse, to_string. cbn [namespace table_name].
  rewrite split_joined by assumption. unfold of_parts. rewrite removelast_last, last_last. destruct ns; reflexivity.
Qed.
