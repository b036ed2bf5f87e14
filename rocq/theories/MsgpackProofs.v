(** The MessagePack reader inverts the writer. *)
From Verif Require Import Bytes MsgpackModel.
From Coq Require Import ZifyBool ZifyNat ZifyN.
Ltac Zify.zify_post_hook ::= Z.div_mod_to_equations.
Local Open Scope N_scope.

Section Ind.
  Variable P : mp -> Prop.
  Hypothesis Hnil : P MNil.
  Hypothesis Hbool : forall b, P (MBool b).
  Hypothesis Huint : forall n, P (MUint n).
  Hypothesis Hneg : forall n, P (MNeg n).
  Hypothesis Hf32 : forall n, P (MF32 n).
  Hypothesis Hf64 : forall n, P (MF64 n).
  Hypothesis Hstr : forall s, P (MStr s).
  Hypothesis Harr : forall l, Forall P l -> P (MArr l).
  Hypothesis Hmap : forall l, Forall (fun kv => P (fst kv) /\ P (snd kv)) l -> P (MMap l).
  Fixpoint mp_rect' (v : mp) : P v :=
    match v with
    | MNil => Hnil | MBool b => Hbool b | MUint n => Huint n | MNeg n => Hneg n
    | MF32 n => Hf32 n | MF64 n => Hf64 n | MStr s => Hstr s
    | MArr l => Harr l ((fix go l : Forall P l :=
                           match l with [] => Forall_nil _
                                   | x :: r => Forall_cons x (mp_rect' x) (go r) end) l)
    | MMap l => Hmap l ((fix go l : Forall (fun kv => P (fst kv) /\ P (snd kv)) l :=
                           match l with [] => Forall_nil _
                                   | x :: r => Forall_cons x (conj (mp_rect' (fst x)) (mp_rect' (snd x))) (go r) end) l)
    end.
End Ind.

Fixpoint depth (v : mp) : nat :=
  match v with
  | MArr l => S (fold_right (fun x a => Nat.max (depth x) a) O l)
  | MMap l => S (fold_right (fun kv a => Nat.max (Nat.max (depth (fst kv)) (depth (snd kv))) a) O l)
  | _ => 1%nat
  end.

Lemma take_be_be k n r : n < 256 ^ N.of_nat k -> take_be k (be k n ++ r) = Some (n, r).
Proof.
  intros H. unfold take_be. rewrite take_app' by (rewrite be_length; reflexivity).
  rewrite unbe_be, N.mod_small by exact H. reflexivity.
Qed.

Lemma take_str_app s r : take_str (N.of_nat (List.length s)) (s ++ r) = Some (MStr s, r).
Proof.
  unfold take_str. rewrite app_length.
  destruct (N.ltb_spec (N.of_nat (List.length s + List.length r)) (N.of_nat (List.length s))); [lia|].
  rewrite Nat2N.id, take_app. reflexivity.
Qed.

Ltac small_ltb :=
  repeat match goal with
  | |- context [?a <? ?b] => let E := fresh "E" in destruct (N.ltb_spec a b) as [E|E]; try lia
  end.

Lemma enc_nonempty v : enc v <> [].
Proof.
  destruct v; simpl; try discriminate.
  - destruct b; discriminate.
  - unfold enc_uint. repeat match goal with |- context [if ?c then _ else _] => destruct c end; discriminate.
  - unfold enc_neg. repeat match goal with |- context [if ?c then _ else _] => destruct c end; discriminate.
  - unfold enc_str_head. repeat match goal with |- context [if ?c then _ else _] => destruct c end; discriminate.
  - unfold enc_arr_head. repeat match goal with |- context [if ?c then _ else _] => destruct c end; discriminate.
  - unfold enc_map_head. repeat match goal with |- context [if ?c then _ else _] => destruct c end; discriminate.
Qed.

Lemma enc_length_pos v : (1 <= List.length (enc v))%nat.
Proof. pose proof (enc_nonempty v). destruct (enc v); [congruence|simpl; lia]. Qed.

Lemma flat_map_length_ge l : (List.length l <= List.length (flat_map enc l))%nat.
Proof.
  induction l as [|v l IH]; simpl; [lia|]. rewrite app_length. pose proof (enc_length_pos v). lia.
Qed.

Lemma flat_map_pairs_length_ge l :
  (List.length l <= List.length (flat_map (fun kv => enc (fst kv) ++ enc (snd kv)) l))%nat.
Proof.
  induction l as [|v l IH]; simpl; [lia|]. rewrite !app_length. pose proof (enc_length_pos (fst v)). lia.
Qed.

Lemma dec_list_enc d l r g :
  (forall v r, In v l -> d (enc v ++ r) = Some (v, r)) ->
  (List.length l <= g)%nat ->
  dec_list d g (N.of_nat (List.length l)) (flat_map enc l ++ r) = Some (l, r).
Proof.
  revert g. induction l as [|v l IH]; intros g Hd Hg.
  - destruct g; reflexivity.
  - destruct g as [|g]; cbn [List.length] in *; [lia|].
    cbn [dec_list flat_map].
    replace (N.of_nat (S (List.length l)) =? 0) with false by (symmetry; apply N.eqb_neq; lia).
    rewrite <- app_assoc, Hd by (left; reflexivity).
    replace (N.of_nat (S (List.length l)) - 1) with (N.of_nat (List.length l)) by lia.
    rewrite IH; [reflexivity| |lia]. intros; apply Hd; right; assumption.
Qed.

Lemma dec_pairs_enc d l r g :
  (forall kv r, In kv l -> d (enc (fst kv) ++ r) = Some (fst kv, r) /\ d (enc (snd kv) ++ r) = Some (snd kv, r)) ->
  (List.length l <= g)%nat ->
  dec_pairs d g (N.of_nat (List.length l)) (flat_map (fun kv => enc (fst kv) ++ enc (snd kv)) l ++ r) = Some (l, r).
Proof.
  revert g. induction l as [|v l IH]; intros g Hd Hg.
  - destruct g; reflexivity.
  - destruct g as [|g]; cbn [List.length] in *; [lia|].
    cbn [dec_pairs flat_map].
    replace (N.of_nat (S (List.length l)) =? 0) with false by (symmetry; apply N.eqb_neq; lia).
    rewrite <- !app_assoc.
    destruct (Hd v (enc (snd v) ++ flat_map (fun kv => enc (fst kv) ++ enc (snd kv)) l ++ r)) as [-> _];
      [left; reflexivity|].
    destruct (Hd v (flat_map (fun kv => enc (fst kv) ++ enc (snd kv)) l ++ r)) as [_ ->]; [left; reflexivity|].
    replace (N.of_nat (S (List.length l)) - 1) with (N.of_nat (List.length l)) by lia.
    rewrite IH; [destruct v; reflexivity| |lia]. intros; apply Hd; right; assumption.
Qed.

Lemma fold_max_in (l : list mp) x : In x l -> (depth x <= fold_right (fun x a => Nat.max (depth x) a) O l)%nat.
Proof. induction l as [|y l IH]; simpl; [tauto|]. intros [->|H]; [lia|]. specialize (IH H). lia. Qed.

Lemma fold_max_in2 (l : list (mp * mp)) x : In x l ->
  (Nat.max (depth (fst x)) (depth (snd x)) <=
   fold_right (fun kv a => Nat.max (Nat.max (depth (fst kv)) (depth (snd kv))) a) O l)%nat.
Proof. induction l as [|y l IH]; simpl; [tauto|]. intros [->|H]; [lia|]. specialize (IH H). lia. Qed.

(* case analysis on the tag byte *)
Lemma tag_lt n : n < 256 -> N_of_byte (byte_of_N n) = n.
Proof. intros. rewrite N_of_byte_of_N. apply N.mod_small; lia. Qed.

Lemma dec_tag f b r t : N_of_byte b = t ->
  dec (S f) (b :: r) =
      let arr n r := match dec_list (dec f) (List.length r) n r with
                     | Some (vs, r') => Some (MArr vs, r') | None => None end in
      let map n r := match dec_pairs (dec f) (List.length r) n r with
                     | Some (vs, r') => Some (MMap vs, r') | None => None end in
      let sized {A} k (g : N -> list byte -> option A) :=
          match take_be k r with Some (n, r') => g n r' | None => None end in
      if t <? 0x80 then Some (MUint t, r)
      else if t <? 0x90 then map (t - 0x80) r
      else if t <? 0xa0 then arr (t - 0x90) r
      else if t <? 0xc0 then take_str (t - 0xa0) r
      else if t =? 0xc0 then Some (MNil, r)
      else if t =? 0xc2 then Some (MBool false, r)
      else if t =? 0xc3 then Some (MBool true, r)
      else if t =? 0xca then sized 4%nat (fun n r' => Some (MF32 n, r'))
      else if t =? 0xcb then sized 8%nat (fun n r' => Some (MF64 n, r'))
      else if t =? 0xcc then sized 1%nat (fun n r' => Some (MUint n, r'))
      else if t =? 0xcd then sized 2%nat (fun n r' => Some (MUint n, r'))
      else if t =? 0xce then sized 4%nat (fun n r' => Some (MUint n, r'))
      else if t =? 0xcf then sized 8%nat (fun n r' => Some (MUint n, r'))
      else if t =? 0xd0 then sized 1%nat (fun n r' => Some (mk_int 8 n, r'))
      else if t =? 0xd1 then sized 2%nat (fun n r' => Some (mk_int 16 n, r'))
      else if t =? 0xd2 then sized 4%nat (fun n r' => Some (mk_int 32 n, r'))
      else if t =? 0xd3 then sized 8%nat (fun n r' => Some (mk_int 64 n, r'))
      else if t =? 0xd9 then sized 1%nat take_str
      else if t =? 0xda then sized 2%nat take_str
      else if t =? 0xdb then sized 4%nat take_str
      else if t =? 0xdc then sized 2%nat arr
      else if t =? 0xdd then sized 4%nat arr
      else if t =? 0xde then sized 2%nat map
      else if t =? 0xdf then sized 4%nat map
      else if t <? 0xe0 then None
      else Some (MNeg (255 - t), r).
Proof. intros <-. reflexivity. Qed.

Lemma dec_uint f n r : n < 2^64 -> dec (S f) (enc_uint n ++ r) = Some (MUint n, r).
Proof.
  intros H. unfold enc_uint.
  destruct (N.ltb_spec n 128).
  { cbn [app]. rewrite (dec_tag _ _ _ n) by (apply tag_lt; lia). cbv zeta.
    replace (n <? 128) with true by (symmetry; apply N.ltb_lt; lia). reflexivity. }
  destruct (N.ltb_spec n (2^8)); [|destruct (N.ltb_spec n (2^16)); [|destruct (N.ltb_spec n (2^32))]];
    cbn [app];
    match goal with |- context [byte_of_N ?t] => rewrite (dec_tag _ _ _ t) by (apply tag_lt; reflexivity) end;
    cbv zeta; cbn [N.ltb N.eqb N.compare Pos.compare Pos.compare_cont Pos.eqb];
    rewrite take_be_be by (cbn [N.of_nat Pos.of_succ_nat Pos.succ]; lia); reflexivity.
Qed.

Lemma mk_int_neg w n : 0 < w -> n < 2^(w-1) -> mk_int w (2^w - 1 - n) = MNeg n.
Proof.
  intros Hw H. unfold mk_int. assert (2^w = 2 * 2^(w-1)).
  { rewrite <- N.pow_succ_r'. f_equal. lia. }
  destruct (N.ltb_spec (2^w - 1 - n) (2^(w-1))); [lia|]. f_equal. lia.
Qed.

Lemma dec_neg f n r : n < 2^63 -> dec (S f) (enc_neg n ++ r) = Some (MNeg n, r).
Proof.
  intros H. unfold enc_neg.
  destruct (N.ltb_spec n 32).
  { cbn [app]. rewrite (dec_tag _ _ _ (255 - n)) by (apply tag_lt; lia). cbv zeta.
    repeat match goal with
    | |- context [?a <? ?b] => replace (a <? b) with false by (symmetry; apply N.ltb_ge; lia)
    | |- context [?a =? ?b] => replace (a =? b) with false by (symmetry; apply N.eqb_neq; lia)
    end.
    do 2 f_equal. f_equal. lia. }
  destruct (N.ltb_spec n (2^7)); [|destruct (N.ltb_spec n (2^15)); [|destruct (N.ltb_spec n (2^31))]];
    cbn [app];
    match goal with |- context [dec _ (byte_of_N ?t :: _)] => rewrite (dec_tag _ _ _ t) by (apply tag_lt; reflexivity) end;
    cbv zeta; cbn [N.ltb N.eqb N.compare Pos.compare Pos.compare_cont Pos.eqb];
    rewrite take_be_be by (cbn [N.of_nat Pos.of_succ_nat Pos.succ]; lia);
    rewrite mk_int_neg by (cbn; lia); reflexivity.
Qed.

Lemma dec_str f s r : N.of_nat (List.length s) < 2^32 ->
  dec (S f) ((enc_str_head (N.of_nat (List.length s)) ++ s) ++ r) = Some (MStr s, r).
Proof.
  intros H. unfold enc_str_head. set (n := N.of_nat (List.length s)) in *. rewrite <- app_assoc.
  destruct (N.ltb_spec n 32).
  { cbn [app]. rewrite (dec_tag _ _ _ (0xa0 + n)) by (apply tag_lt; lia). cbv zeta.
    repeat match goal with
    | |- context [?a <? ?b] => first [replace (a <? b) with false by (symmetry; apply N.ltb_ge; lia)
                                     |replace (a <? b) with true by (symmetry; apply N.ltb_lt; lia)]
    end. replace (160 + n - 160) with n by lia. apply take_str_app. }
  destruct (N.ltb_spec n (2^8)); [|destruct (N.ltb_spec n (2^16))];
    cbn [app];
    match goal with |- context [dec _ (byte_of_N ?t :: _)] => rewrite (dec_tag _ _ _ t) by (apply tag_lt; reflexivity) end;
    cbv zeta; cbn [N.ltb N.eqb N.compare Pos.compare Pos.compare_cont Pos.eqb];
    rewrite take_be_be by (cbn [N.of_nat Pos.of_succ_nat Pos.succ]; lia); apply take_str_app.
Qed.

Lemma dec_arr_head f n r : n < 2^32 ->
  dec (S f) (enc_arr_head n ++ r) =
  match dec_list (dec f) (List.length r) n r with Some (vs, r') => Some (MArr vs, r') | None => None end.
Proof.
  intros H. unfold enc_arr_head.
  destruct (N.ltb_spec n 16).
  { cbn [app]. rewrite (dec_tag _ _ _ (0x90 + n)) by (apply tag_lt; lia). cbv zeta.
    repeat match goal with
    | |- context [?a <? ?b] => first [replace (a <? b) with false by (symmetry; apply N.ltb_ge; lia)
                                     |replace (a <? b) with true by (symmetry; apply N.ltb_lt; lia)]
    end. replace (0x90 + n - 0x90) with n by lia. reflexivity. }
  destruct (N.ltb_spec n (2^16));
    cbn [app];
    match goal with |- context [dec _ (byte_of_N ?t :: _)] => rewrite (dec_tag _ _ _ t) by (apply tag_lt; reflexivity) end;
    cbv zeta; cbn [N.ltb N.eqb N.compare Pos.compare Pos.compare_cont Pos.eqb];
    rewrite take_be_be by (cbn [N.of_nat Pos.of_succ_nat Pos.succ]; lia); reflexivity.
Qed.

Lemma dec_map_head f n r : n < 2^32 ->
  dec (S f) (enc_map_head n ++ r) =
  match dec_pairs (dec f) (List.length r) n r with Some (vs, r') => Some (MMap vs, r') | None => None end.
Proof.
  intros H. unfold enc_map_head.
  destruct (N.ltb_spec n 16).
  { cbn [app]. rewrite (dec_tag _ _ _ (0x80 + n)) by (apply tag_lt; lia). cbv zeta.
    repeat match goal with
    | |- context [?a <? ?b] => first [replace (a <? b) with false by (symmetry; apply N.ltb_ge; lia)
                                     |replace (a <? b) with true by (symmetry; apply N.ltb_lt; lia)]
    end. replace (0x80 + n - 0x80) with n by lia. reflexivity. }
  destruct (N.ltb_spec n (2^16));
    cbn [app];
    match goal with |- context [dec _ (byte_of_N ?t :: _)] => rewrite (dec_tag _ _ _ t) by (apply tag_lt; reflexivity) end;
    cbv zeta; cbn [N.ltb N.eqb N.compare Pos.compare Pos.compare_cont Pos.eqb];
    rewrite take_be_be by (cbn [N.of_nat Pos.of_succ_nat Pos.succ]; lia); reflexivity.
Qed.

Lemma dec_enc v : wf v = true -> forall f r, (depth v <= f)%nat -> dec f (enc v ++ r) = Some (v, r).
Proof.
  induction v using mp_rect'; intros Hwf f r Hf;
    (destruct f as [|f]; [exfalso; cbn [depth] in Hf; lia|]); cbn [wf] in Hwf.
  - reflexivity.
  - destruct b; reflexivity.
  - apply dec_uint. apply N.ltb_lt; exact Hwf.
  - apply dec_neg. apply N.ltb_lt; exact Hwf.
  - cbn [enc app]. rewrite (dec_tag _ _ _ 0xca) by reflexivity. cbv zeta.
    cbn [N.ltb N.eqb N.compare Pos.compare Pos.compare_cont Pos.eqb].
    rewrite take_be_be by (cbn [N.of_nat Pos.of_succ_nat Pos.succ]; lia). reflexivity.
  - cbn [enc app]. rewrite (dec_tag _ _ _ 0xcb) by reflexivity. cbv zeta.
    cbn [N.ltb N.eqb N.compare Pos.compare Pos.compare_cont Pos.eqb].
    rewrite take_be_be by (cbn [N.of_nat Pos.of_succ_nat Pos.succ]; lia). reflexivity.
  - apply dec_str. apply N.ltb_lt; exact Hwf.
  - apply andb_true_iff in Hwf. destruct Hwf as [H1 H2]. apply N.ltb_lt in H1.
    cbn [enc]. rewrite <- app_assoc, dec_arr_head by exact H1.
    rewrite dec_list_enc; [reflexivity| |].
    + intros v r' Hin. rewrite Forall_forall in H. rewrite forallb_forall in H2.
      apply H; [exact Hin|auto|]. cbn [depth] in Hf. pose proof (fold_max_in l v Hin). lia.
    + rewrite app_length. pose proof (flat_map_length_ge l). lia.
  - apply andb_true_iff in Hwf. destruct Hwf as [H1 H2]. apply N.ltb_lt in H1.
    cbn [enc]. rewrite <- app_assoc, dec_map_head by exact H1.
    rewrite dec_pairs_enc; [reflexivity| |].
    + intros v r' Hin. rewrite Forall_forall in H. rewrite forallb_forall in H2.
      destruct (H v Hin) as [Ha Hb]. specialize (H2 v Hin). apply andb_true_iff in H2.
      pose proof (fold_max_in2 l v Hin). cbn [depth] in Hf.
      split; [apply Ha|apply Hb]; try tauto; lia.
    + rewrite app_length. pose proof (flat_map_pairs_length_ge l). lia.
Qed.

Lemma enc_head_lengths n :
  (1 <= List.length (enc_arr_head n))%nat /\ (1 <= List.length (enc_map_head n))%nat.
Proof.
  unfold enc_arr_head, enc_map_head.
  split; repeat match goal with |- context [if ?c then _ else _] => destruct c end; simpl; lia.
Qed.

Lemma depth_le_length v : (depth v <= List.length (enc v))%nat.
Proof.
  induction v using mp_rect'; try (apply enc_length_pos).
  - cbn [enc depth]. rewrite app_length. pose proof (proj1 (enc_head_lengths (N.of_nat (List.length l)))).
    assert (fold_right (fun x a => Nat.max (depth x) a) O l <= List.length (flat_map enc l))%nat; [|lia].
    clear H0. induction H as [|x l Hx Hl IH]; simpl; [lia|]. rewrite app_length. lia.
  - cbn [enc depth]. rewrite app_length. pose proof (proj2 (enc_head_lengths (N.of_nat (List.length l)))).
    match goal with |- (S ?a <= _ + ?b)%nat => assert (a <= b)%nat; [|lia] end.
    clear H0. induction H as [|x l [Hx Hy] Hl IH]; simpl; [lia|]. rewrite !app_length. lia.
Qed.

Theorem unpack_enc v r : wf v = true -> unpack (enc v ++ r) = Some (v, r).
Proof.
  intros H. unfold unpack. apply dec_enc; [exact H|]. rewrite app_length.
  pose proof (depth_le_length v). lia.
Qed.
