From Verif Require Import Bytes Outcome ByteOrd CreModel CreSpec.
From Coq Require Import Lia.
Local Open Scope Z_scope.

Lemma lookup_called : forall n k, called n k -> get_logical_type n = k.
Proof. intros n k H. destruct H; vm_compute; reflexivity. Qed.
Lemma called_lookup : forall n, n <> str "numeric" -> get_logical_type n <> NA -> called n (get_logical_type n).
Proof.
  intros n H. unfold get_logical_type. destruct (find (fun e => beqb n (fst e)) lookup) as [e|] eqn:E; [|congruence]. intros _.
  apply find_some in E. destruct E as [I E]. apply beqb_eq in E. subst n.
  repeat (destruct I as [<-|I]; [try constructor; try (elim H; reflexivity)|]). destruct I.
Qed.
Lemma called_plain : forall n k, called n k -> beqb n pg_catalog = false.
Proof. intros n k H. destruct H; vm_compute; reflexivity. Qed.
Lemma called_known : forall n k, called n k -> k <> NA /\ k <> DECIMAL.
Proof. intros n k H. destruct H; split; discriminate. Qed.
Lemma u8_small : forall z, 0 <= z <= 255 -> u8 z = Z.to_N z.
Proof. intros z H. unfold u8. now rewrite Z.mod_small by lia. Qed.
Lemma size_small : forall z, 0 <= z < 2 ^ 31 -> size_of z = Z.to_N z.
Proof. intros z H. unfold size_of. rewrite Z.mod_small; [reflexivity|]. split; [lia|]. transitivity (2 ^ 31); [lia|reflexivity]. Qed.

(** the type without bounds *)
Lemma known : forall w t, means w t -> exists y, parse w = Ok y /\ get_type y [] = Ok t /\ t <> Kind NA.
Proof.
  intros w t M. destruct M;
    try (eexists; split; [reflexivity|]; split; [vm_compute; reflexivity|discriminate]).
  - cbn [parse]. destruct (Z.ltb_spec p 1); [lia|]. destruct (Z.leb_spec p 24); [|lia].
    eexists. split; [reflexivity|]. split; [vm_compute; reflexivity|discriminate].
  - cbn [parse]. destruct (Z.ltb_spec p 1); [lia|]. destruct (Z.leb_spec p 24); [lia|]. destruct (Z.leb_spec p 53); [|lia].
    eexists. split; [reflexivity|]. split; [vm_compute; reflexivity|discriminate].
  - eexists. split; [reflexivity|]. split; [|discriminate].
    change (Ok (Decimal_of (u8 w) (u8 s)) = Ok (Decimal_of (Z.to_N w) (Z.to_N s))). now rewrite !u8_small by lia.
  - eexists. split; [reflexivity|]. unfold get_type. cbn [names]. rewrite (called_plain _ _ H), (lookup_called _ _ H).
    split; [reflexivity|]. destruct (called_known _ _ H). congruence.
Qed.
Lemma with_bounds : forall y t b, get_type y [] = Ok t -> 0 <= b < 2 ^ 31 -> get_type y [b] = Ok (Array_of t (Z.to_N b)).
Proof.
  intros y t b H B. unfold get_type in *. destruct (match names y with [] => _ | _ => _ end) as [c|e]; [|discriminate].
  cbn [rbind] in *. injection H as ->. now rewrite size_small.
Qed.
Lemma declared : forall els cs, declares els cs -> Forall one_bound els -> columns_of els = Ok cs.
Proof.
  intros els cs D. induction D as [|n w t bs els cs M D IH]; intros F; [reflexivity|].
  inversion F as [|? ? B F']; subst. cbn [columns_of]. destruct (known w t M) as (y & P & G & K). rewrite P. cbn [rbind].
  destruct bs as [|b [|b' bs]]; cbn [one_bound] in B; [| |destruct B].
  - rewrite G. cbn [rbind dimensions]. rewrite (IH F'). destruct t as [[]| | |]; try reflexivity. now elim K.
  - rewrite (with_bounds y t b G B). cbn [rbind dimensions]. rewrite (IH F'). cbn [rbind].
    destruct (Z.ltb_spec b 0); [lia|]. reflexivity.
Qed.
Lemma created : forall q els cs f, declares els cs -> Forall one_bound els -> stands_for q f -> create_table q els = Ok (f, cs).
Proof.
  intros q els cs f D F N. unfold create_table. rewrite (declared els cs D F). cbn [rbind]. f_equal. f_equal.
  destruct N as (u & d & s & -> & N). destruct q as [|a [|b [|c [|e [|? ?]]]]]; try (destruct N; fail); cbn [last range_var];
    destruct N as (-> & -> & ->); reflexivity.
Qed.

(** what is refused *)
Lemma plain_type : forall n w bs, plain (Column n w bs) ->
  (exists t, means w t) \/ (forall y, parse w = Ok y -> get_type y bs = Err Throw \/ get_type y bs = Ok (Kind NA)).
Proof.
  intros n w bs P. destruct w as [| | | |[p|]| |ms| |v|v|z|z| |m r ms]; cbn [plain] in P;
    try (left; eexists; constructor; fail).
  - destruct (Z.ltb_spec p 1) as [A|A]; [right; intros y H; cbn [parse] in H; destruct (Z.ltb_spec p 1); [discriminate|lia]|].
    destruct (Z.leb_spec p 53) as [B|B].
    + left. destruct (Z.leb_spec p 24); eexists; [apply m_single|apply m_double]; lia.
    + right. intros y H. cbn [parse] in H. destruct (Z.ltb_spec p 1); [discriminate|]. destruct (Z.leb_spec p 24); [lia|].
      destruct (Z.leb_spec p 53); [lia|discriminate].
  - assert (K : forall l, (forall a b, l <> [MInt a; MInt b]) -> forall y, parse (Decimal l) = Ok y -> get_type y bs = Err Throw).
    { intros l L y H. injection H as <-. unfold get_type. cbn [names system typmods].
      change (beqb pg_catalog pg_catalog) with true. change (get_logical_type (str "numeric")) with DECIMAL. cbn iota.
      destruct l as [|[a|] [|[b|] [|? ?]]]; try reflexivity. elim (L a b). reflexivity. }
    destruct ms as [|[a|] [|[b|] [|? ?]]]; try (right; intros y H; left; apply (K _) in H; [exact H|discriminate]; fail).
    left. eexists. apply m_decimal; lia.
  - subst bs. destruct v; [right; intros y H; injection H as <-; right; vm_compute; reflexivity|left; eexists; constructor].
  - subst bs. right. intros y H. injection H as <-. right. destruct v; vm_compute; reflexivity.
  - subst bs. right. intros y H. injection H as <-. right. destruct z; vm_compute; reflexivity.
  - subst bs. right. intros y H. injection H as <-. right. destruct z; vm_compute; reflexivity.
  - subst bs. right. intros y H. injection H as <-. right. vm_compute. reflexivity.
  - destruct P as (-> & -> & N1 & N2 & ->).
    destruct (get_logical_type m) eqn:G;
      try (left; exists (Kind (get_logical_type m)); constructor; apply called_lookup; [exact N2|congruence]).
    right. intros y H. injection H as <-. right. unfold get_type. cbn [names].
    destruct (beqb m pg_catalog) eqn:E; [apply beqb_eq in E; now elim N1|]. cbn [rbind]. now rewrite G.
Qed.
Lemma plain_bound : forall e, plain e -> one_bound e.
Proof.
  intros [n w bs|]; cbn [plain one_bound]; [|tauto]. destruct w as [| | | | | |ms| | | | | | |m r ms]; try (intros ->; exact I); intros H.
  - destruct ms as [|[a|] [|[b|] [|? ?]]]; try (subst bs; exact I). destruct H as (_ & _ & ->). exact I.
  - destruct H as (_ & _ & _ & _ & ->). exact I.
Qed.
Lemma refused : forall q els, Forall plain els -> (forall cs, ~ declares els cs) -> create_table q els = Err Throw.
Proof.
  intros q els F N. unfold create_table. enough (E : columns_of els = Err Throw) by now rewrite E.
  induction F as [|e els P F IH]; [elim (N []); constructor|].
  destruct e as [n w bs|]; [|destruct P]. cbn [columns_of].
  destruct (plain_type n w bs P) as [(t & M)|R].
  - pose proof (plain_bound _ P) as B. destruct (known w t M) as (y & E & G & K). rewrite E. cbn [rbind].
    assert (C : exists c, get_type y bs = Ok c /\ c <> Kind NA).
    { destruct bs as [|b [|b' bs]]; cbn [one_bound] in B; [now exists t| |destruct B].
      exists (Array_of t (Z.to_N b)). split; [now apply with_bounds|discriminate]. }
    destruct C as (c & C & Kc). rewrite C. cbn [rbind]. rewrite IH.
    + destruct c as [[]| | |]; try reflexivity. 
    + intros cs D. apply (N ((n, dimensions t bs) :: cs)). now constructor.
  - destruct (parse w) as [y|e] eqn:E; cbn [rbind].
    + destruct (R y eq_refl) as [H|H]; rewrite H; reflexivity.
    + destruct w as [| | | |[p|]| | | | | | | | |]; try discriminate. cbn [parse] in E.
      destruct (p <? 1); [injection E as <-; reflexivity|]. destruct (p <=? 24); [discriminate|].
      destruct (p <=? 53); [discriminate|]. injection E as <-. reflexivity.
Qed.

(** names *)
Lemma dropped : forall q f, stands_for q f -> drop_table [q] = Ok f.
Proof.
  intros q f (u & d & s & -> & N). destruct q as [|a [|b [|c [|e [|? ?]]]]]; try (destruct N; fail); cbn [last drop_table];
    destruct N as (-> & -> & ->); reflexivity.
Qed.
Lemma index_dropped : forall q f i, stands_for q f -> (2 <= length q)%nat -> drop_index [q ++ [i]] = Ok (f, i).
Proof.
  intros q f i (u & d & s & -> & N) L. destruct q as [|a [|b [|c [|e [|? ?]]]]]; try (destruct N; fail); cbn [length] in L; try lia;
    cbn [last app drop_index]; destruct N as (-> & -> & ->); reflexivity.
Qed.
Lemma stands_one : forall q f g, stands_for q f -> stands_for q g -> f = g.
Proof.
  intros q f g A B. apply dropped in A, B. congruence.
Qed.
Lemma different : forall q q' f, Forall (fun x => x <> []) q -> Forall (fun x => x <> []) q' -> stands_for q f -> stands_for q' f -> q = q'.
Proof.
  intros q q' f A B (u & d & s & -> & N) (u' & d' & s' & E & N'). injection E as -> -> -> L.
  destruct q as [|a [|b [|c [|e [|? ?]]]]]; try (destruct N; fail); destruct q' as [|a' [|b' [|c' [|e' [|? ?]]]]];
    try (destruct N'; fail); cbn [last] in L; destruct N as (-> & -> & ->); destruct N' as (E1 & E2 & E3); subst; try reflexivity;
    exfalso; repeat match goal with H : Forall _ (_ :: _) |- _ => inversion H; subst; clear H end; congruence.
Qed.
