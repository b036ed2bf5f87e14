(** Proofs about the JSON text of documents. *)
From Verif Require Import Bytes Outcome ByteOrd GlobModel.
From Verif Require Import TapeModel TapeSpec TapeProofs DocPackModel DocPackSpec DocPackProofs JsonModel JsonSpec.
Local Open Scope N_scope.

(** ** Numbers *)
Lemma digit_value d : d < 10 -> N_of_byte (digit_byte d) = 48 + d.
Proof. intros L. unfold digit_byte. rewrite N_of_byte_of_N. apply N.mod_small. lia. Qed.
Lemma digit_is d : d < 10 -> is_digit (digit_byte d) = true.
Proof. intros L. unfold is_digit. rewrite (digit_value d L). lia. Qed.

Lemma decimal_read f : forall n acc a, n < 2 ^ N.of_nat f -> exists L, read_digits a (decimal f n acc) = read_digits (a * 10 ^ L + n) acc.
Proof.
  induction f as [|f IH]; intros n acc a B.
  - exists 0. cbn [decimal]. cbn in B. f_equal. lia.
  - cbn [decimal]. pose proof (N.mod_lt n 10 ltac:(lia)) as M. pose proof (N.div_mod n 10 ltac:(lia)) as D.
    assert (R : forall a', read_digits a' (digit_byte (n mod 10) :: acc) = read_digits (10 * a' + n mod 10) acc).
    { intros a'. cbn [read_digits]. rewrite (digit_is _ M), (digit_value _ M). f_equal. lia. }
    destruct (N.eqb_spec (n / 10) 0) as [Z|Z].
    + exists 1. rewrite R. f_equal. rewrite N.pow_1_r. lia.
    + assert (B' : n / 10 < 2 ^ N.of_nat f). { rewrite Nat2N.inj_succ, N.pow_succ_r' in B. apply N.div_lt_upper_bound; lia. }
      destruct (IH (n / 10) (digit_byte (n mod 10) :: acc) a B') as [L E]. exists (N.succ L). rewrite E, R, N.pow_succ_r'. f_equal. lia.
Qed.

Lemma decimal_head f : forall n acc, (0 < f)%nat -> n < 2 ^ N.of_nat f -> exists d r, decimal f n acc = digit_byte d :: r /\ d < 10 /\ (n = 0 -> d = 0 /\ r = acc) /\ (n <> 0 -> d <> 0).
Proof.
  induction f as [|f IH]; intros n acc P B; [lia|]. cbn [decimal]. pose proof (N.mod_lt n 10 ltac:(lia)) as M. pose proof (N.div_mod n 10 ltac:(lia)) as D.
  destruct (N.eqb_spec (n / 10) 0) as [Z|Z].
  - exists (n mod 10), acc. split; [reflexivity|]. split; [exact M|]. split; [intros ->; split; reflexivity|intros; lia].
  - assert (B' : n / 10 < 2 ^ N.of_nat f). { rewrite Nat2N.inj_succ, N.pow_succ_r' in B. apply N.div_lt_upper_bound; lia. }
    assert (P' : (0 < f)%nat). { destruct f; [cbn in B'; lia|lia]. }
    destruct (IH (n / 10) (digit_byte (n mod 10) :: acc) P' B') as (d & r & E & L & _ & Nz). exists d, r. split; [exact E|]. split; [exact L|].
    split; [intros ->; exfalso; apply Z; reflexivity|intros _; apply Nz; exact Z].
Qed.
Lemma decimal_app f : forall n acc r, decimal f n acc ++ r = decimal f n (acc ++ r).
Proof. induction f as [|f IH]; intros n acc r; [reflexivity|]. cbn [decimal]. destruct (n / 10 =? 0); [reflexivity|]. rewrite IH. reflexivity. Qed.

Lemma size_bound n : n < 2 ^ N.of_nat (S (N.to_nat (N.size n))).
Proof. rewrite Nat2N.inj_succ, N2Nat.id, N.pow_succ_r'. pose proof (N.size_gt n). lia. Qed.
Lemma unsigned_head n rest : exists d r, unsigned_text n ++ rest = digit_byte d :: r /\ d < 10 /\ (n = 0 -> d = 0 /\ r = rest) /\ (n <> 0 -> d <> 0).
Proof. unfold unsigned_text. rewrite decimal_app. apply decimal_head; [lia|apply size_bound]. Qed.

Lemma digits_stop a rest : goes_on rest = false -> read_digits a rest = (a, rest).
Proof. destruct rest as [|c r]; [reflexivity|]. cbn. destruct (is_digit c); [discriminate|reflexivity]. Qed.
Lemma unsigned_read n rest : goes_on rest = false -> read_natural (unsigned_text n ++ rest) = Some (n, rest).
Proof.
  intros G. destruct (unsigned_head n rest) as (d & r & E & L & Z & Nz). pose proof E as E'.
  assert (R : exists L, read_digits 0 (unsigned_text n ++ rest) = read_digits (0 * 10 ^ L + n) rest).
  { unfold unsigned_text. rewrite decimal_app. apply decimal_read, size_bound. }
  destruct R as [L' R]. rewrite N.mul_0_l, N.add_0_l, (digits_stop n rest G) in R. rewrite E in *. unfold read_natural, beq.
  rewrite (digit_value d L), (digit_is d L), R, G. change (N_of_byte "0"%char) with 48. destruct (N.eqb_spec (48 + d) 48) as [Q|Q].
  - destruct (N.eq_dec n 0) as [->|Hn]; [|specialize (Nz Hn); lia]. destruct (Z eq_refl) as [_ ->]. rewrite G. reflexivity.
  - reflexivity.
Qed.

(** ** The text of a content *)
Definition scalar_text (s : scalar) : list byte :=
  match s with
  | SNull => str "null" | SBool true => str "true" | SBool false => str "false"
  | SInt _ z => signed_text z | SString s => mark ++ s ++ mark | _ => str "?"
  end.
Fixpoint joined (l : list (list byte)) : list byte :=
  match l with [] => [] | x :: r => x ++ match r with [] => [] | _ => str "," ++ joined r end end.
Fixpoint text (v : content) : list byte :=
  match v with
  | CScalar s => scalar_text s
  | CObj gs => str "{" ++ joined (map (fun kv => mark ++ fst kv ++ mark ++ str ":" ++ text (snd kv)) gs) ++ str "}"
  | CArr vs => str "[" ++ joined (map text vs) ++ str "]"
  end.

Lemma signed_nonempty z : (1 <= length (signed_text z))%nat.
Proof.
  assert (U : forall n, (1 <= length (unsigned_text n))%nat).
  { intros n. destruct (unsigned_head n []) as (d & r & E & _). rewrite app_nil_r in E. rewrite E. cbn. lia. }
  unfold signed_text. destruct (z <? 0)%Z; [cbn; lia|apply U].
Qed.
Lemma text_nonempty v : (1 <= length (text v))%nat.
Proof.
  destruct v as [s|gs|vs]; cbn [text]; [|cbn; lia..]. destruct s as [|[|]|k z|n|n|s]; cbn [scalar_text]; try (cbn; lia). apply signed_nonempty.
Qed.

Lemma value_bind {A B} (r : res (result A)) a (f : A -> res B) : r = Ok (Val a) -> (do x <- value r; f x) = f a.
Proof. intros ->. reflexivity. Qed.
Lemma print_scalar ft d i s : reads d i s -> printable (CScalar s) = true -> print_element ft d i = Ok (scalar_text s).
Proof.
  intros (T & Nl & G) P. unfold print_element. rewrite T. cbn [rbind]. destruct s as [|b|k z|n|n|s]; cbn [type_code printable] in *; try discriminate P.
  - reflexivity.
  - change (1 =? T_BOOL) with true. cbv iota. rewrite (value_bind _ _ _ G). destruct b; reflexivity.
  - assert (code k =? T_BOOL = false) as -> by (destruct k; reflexivity). assert (code k =? T_STRING = false) as -> by (destruct k; reflexivity).
    assert (code k =? T_NA = false) as -> by (destruct k; reflexivity). assert ((code k =? T_FLOAT) || (code k =? T_DOUBLE) = false) as -> by (destruct k; reflexivity).
    rewrite kind_of_code. assert (K : k <> I128) by (intros ->; discriminate).
    assert (Fz : fits (if signed k then I32 else U32) z = true) by (destruct k; try congruence; exact P).
    assert (E : int_text k z = signed_text z).
    { unfold int_text. destruct (signed k); rewrite (cast_ok _ z Fz); [reflexivity|]. apply fits_iff in Fz. cbn in Fz. unfold signed_text. destruct (Z.ltb_spec z 0); [lia|reflexivity]. }
    destruct k; try congruence; rewrite (value_bind _ _ _ G), E; reflexivity.
  - change (15 =? T_BOOL) with false. change (15 =? T_STRING) with true. cbv iota. rewrite (value_bind _ _ _ G). reflexivity.
Qed.

Definition tail_text (l : list (list byte)) : list byte := flat_map (fun x => str "," ++ x) l.
Lemma joined_tail x l : joined (x :: l) = x ++ tail_text l.
Proof. revert x. induction l as [|y l IH]; intros x; cbn [joined]; [reflexivity|]. f_equal. specialize (IH y). cbn [joined] in IH. rewrite IH. cbn. reflexivity. Qed.

Lemma print_content ft d v : forall t, holds d t v -> printable v = true -> print ft d t = Ok (text v).
Proof.
  induction v as [s|gs IH|vs IH] using content_induction; intros t H P.
  - inversion H; subst. cbn [print text]. apply print_scalar; assumption.
  - inversion H as [|fs gs' Fh|]; subst. cbn [printable] in P. cbn [print text].
    match goal with |- ?g fs (str "{") = _ => set (go := g) end.
    set (item := fun kv : list byte * content => mark ++ fst kv ++ mark ++ str ":" ++ text (snd kv)).
    assert (Step : forall gs fs acc, Forall (fun kv => forall t, holds d t (snd kv) -> printable (snd kv) = true -> print ft d t = Ok (text (snd kv))) gs ->
        fields_hold d fs gs -> forallb (fun kv => forallb harmless (fst kv) && printable (snd kv)) gs = true -> (1 < length acc)%nat ->
        go fs acc = Ok (acc ++ tail_text (map item gs) ++ str "}")).
    { clear. induction gs as [|[k v] gs IHg]; intros fs acc IH Fh P L; inversion Fh; subst; [reflexivity|].
      inversion IH as [|? ? I1 I2]; subst. cbn [forallb fst snd] in P, I1. apply andb_true_iff in P as [P1 P2]. apply andb_true_iff in P1 as [P0 P1].
      unfold go. fold go. rewrite (print_scalar ft d i (SString k)) by assumption. cbn [rbind]. rewrite (I1 _ ltac:(eassumption) P1). cbn [rbind].
      rewrite (IHg fs0); try assumption.
      - f_equal. unfold comma. destruct (Nat.ltb_spec 1 (length acc)); [|lia]. cbn [map tail_text flat_map]. unfold item at 2. cbn [fst snd scalar_text]. rewrite <- !app_assoc. reflexivity.
      - unfold comma. destruct (Nat.ltb_spec 1 (length acc)); [|lia]. rewrite !app_length. lia. }
    destruct gs as [|[k v] gs]; inversion Fh; subst; [reflexivity|].
    inversion IH as [|? ? I1 I2]; subst. cbn [forallb fst snd] in P, I1. apply andb_true_iff in P as [P1 P2]. apply andb_true_iff in P1 as [P0 P1].
    unfold go. fold go. rewrite (print_scalar ft d i (SString k)) by assumption. cbn [rbind]. rewrite (I1 _ ltac:(eassumption) P1). cbn [rbind].
    rewrite (Step gs fs0) by (try assumption; cbn; lia). cbn [map]. rewrite joined_tail. f_equal. unfold item at 2. cbn [fst snd scalar_text]. rewrite <- !app_assoc. reflexivity.
  - inversion H as [| |ts vs' Fh]; subst. cbn [printable] in P. cbn [print text].
    match goal with |- ?g ts (str "[") = _ => set (go := g) end.
    assert (Step : forall vs ts acc, Forall (fun v => forall t, holds d t v -> printable v = true -> print ft d t = Ok (text v)) vs ->
        elements_hold d ts vs -> forallb printable vs = true -> (1 < length acc)%nat ->
        go ts acc = Ok (acc ++ tail_text (map text vs) ++ str "]")).
    { clear. induction vs as [|v vs IHg]; intros ts acc IH Fh P L; inversion Fh; subst; [reflexivity|].
      inversion IH as [|? ? I1 I2]; subst. cbn [forallb] in P. apply andb_true_iff in P as [P1 P2].
      unfold go. fold go. rewrite (I1 _ ltac:(eassumption) P1). cbn [rbind]. rewrite (IHg ts0); try assumption.
      - f_equal. unfold comma. destruct (Nat.ltb_spec 1 (length acc)); [|lia]. cbn [map tail_text flat_map]. rewrite <- !app_assoc. reflexivity.
      - unfold comma. destruct (Nat.ltb_spec 1 (length acc)); [|lia]. rewrite !app_length. lia. }
    destruct vs as [|v vs]; inversion Fh; subst; [reflexivity|].
    inversion IH as [|? ? I1 I2]; subst. cbn [forallb] in P. apply andb_true_iff in P as [P1 P2].
    unfold go. fold go. rewrite (I1 _ ltac:(eassumption) P1). cbn [rbind]. pose proof (text_nonempty v).
    rewrite (Step vs ts0) by (try assumption; cbn [comma length str list_ascii_of_string Nat.ltb Nat.leb app]; lia). cbn [map]. rewrite joined_tail. f_equal. rewrite <- !app_assoc. reflexivity.
Qed.

(** ** Reading it *)
Lemma read_harmless s rest : forallb harmless s = true -> read_string (s ++ quote :: rest) = Some (s, rest).
Proof.
  induction s as [|c s IH]; intros H; cbn [app read_string]; [reflexivity|]. cbn [forallb] in H. apply andb_true_iff in H as [Hc H].
  unfold harmless in Hc. apply andb_true_iff in Hc as [Hc Hb]. apply andb_true_iff in Hc as [Hl Hq]. apply negb_true_iff in Hb, Hq. rewrite Hq, Hb.
  destruct (N.ltb_spec (N_of_byte c) 32); [lia|]. rewrite (IH H). reflexivity.
Qed.

Lemma starts_app w r : starts w (w ++ r) = Some r.
Proof. unfold starts. rewrite firstn_app, Nat.sub_diag, firstn_all, app_nil_r, beqb_refl. f_equal. rewrite skipn_app, Nat.sub_diag, skipn_all. reflexivity. Qed.
Lemma starts_first c w e r : N_of_byte c <> N_of_byte e -> starts (c :: w) (e :: r) = None.
Proof.
  intros Ne. unfold starts. destruct (beqb_spec (c :: w) (firstn (length (c :: w)) (e :: r))) as [E|]; [|reflexivity]. cbn [length firstn] in E. congruence.
Qed.

(** The first character of a text, which is not white. *)
Lemma skip_first c r : white c = false -> skip (c :: r) = c :: r.
Proof. intros W. cbn. rewrite W. reflexivity. Qed.

Lemma read_number f z rest : goes_on rest = false -> read_value (S f) (signed_text z ++ rest) = Some (JInt z, rest).
Proof.
  intros G. unfold signed_text. destruct (Z.ltb_spec z 0) as [L|L].
  - rewrite <- app_assoc. cbn [app str list_ascii_of_string]. cbn [read_value].
    change (skip ("-"%char :: unsigned_text (Z.to_N (- z)) ++ rest)) with ("-"%char :: unsigned_text (Z.to_N (- z)) ++ rest). unfold str at 1 2 3. cbn [list_ascii_of_string].
    rewrite !starts_first by discriminate. change (beq "-"%char quote) with false. change (beq "-"%char "-"%char) with true. cbv iota.
    rewrite (unsigned_read _ rest G). do 3 f_equal. lia.
  - pose proof (unsigned_read (Z.to_N z) rest G) as U. destruct (unsigned_head (Z.to_N z) rest) as (d & r & E & D & _). rewrite E in *. cbn [read_value].
    assert (V := digit_value d D).
    assert (Q : forall c, N_of_byte c < 48 \/ 57 < N_of_byte c -> beq (digit_byte d) c = false). { intros c Hc. unfold beq. rewrite V. lia. }
    rewrite skip_first by (unfold white; rewrite V; lia). unfold str at 1 2 3. cbn [list_ascii_of_string].
    rewrite !starts_first by (rewrite V; match goal with |- N_of_byte ?c <> _ => change (N_of_byte c) with (N_of_byte c); vm_compute (N_of_byte c) end; lia).
    rewrite (Q quote) by (vm_compute; auto). rewrite (Q "-"%char) by (vm_compute; auto). rewrite (Q "{"%char) by (vm_compute; auto). rewrite (Q "["%char) by (vm_compute; auto).
    rewrite U. do 3 f_equal. lia.
Qed.

Lemma read_literal w j f rest : (w = str "null" /\ j = JNull) \/ (w = str "true" /\ j = JBool true) \/ (w = str "false" /\ j = JBool false) ->
  read_value (S f) (w ++ rest) = Some (j, rest).
Proof.
  intros H. cbn [read_value]. destruct H as [[-> ->]|[[-> ->]|[-> ->]]].
  - change (skip (str "null" ++ rest)) with (str "null" ++ rest). rewrite (starts_app (str "null")). reflexivity.
  - change (skip (str "true" ++ rest)) with (str "true" ++ rest). rewrite (starts_app (str "true")). change (starts (str "null") (str "true" ++ rest)) with (@None (list byte)). reflexivity.
  - change (skip (str "false" ++ rest)) with (str "false" ++ rest). rewrite (starts_app (str "false")). change (starts (str "null") (str "false" ++ rest)) with (@None (list byte)). change (starts (str "true") (str "false" ++ rest)) with (@None (list byte)). reflexivity.
Qed.

(** What a value starts with is not a closing bracket. *)
Lemma text_first v : exists c r, text v = c :: r /\ white c = false /\ N_of_byte c <> 93 /\ N_of_byte c <> 125.
Proof.
  destruct v as [s|gs|vs]; cbn [text]; [|eexists _, _; split; [reflexivity|]; split; [reflexivity|split; discriminate]..].
  destruct s as [|[|]|k z|n|n|s]; cbn [scalar_text]; try (eexists _, _; split; [reflexivity|]; split; [reflexivity|split; discriminate]).
  unfold signed_text. destruct (z <? 0)%Z; [eexists _, _; split; [reflexivity|]; split; [reflexivity|split; discriminate]|].
  destruct (unsigned_head (Z.to_N z) []) as (d & r & E & D & _). rewrite app_nil_r in E. exists (digit_byte d), r. split; [exact E|].
  unfold white. rewrite (digit_value d D). split; [|split]; lia.
Qed.

Lemma read_content v : forall f rest, printable v = true -> (length (text v) <= f)%nat -> goes_on rest = false -> read_value f (text v ++ rest) = Some (meaning v, rest).
Proof.
  induction v as [s|gs IH|vs IH] using content_induction; intros f rest P F G.
  - pose proof (text_nonempty (CScalar s)). destruct f as [|f]; [lia|]. cbn [text meaning]. destruct s as [|[|]|k z|n|n|s]; cbn [scalar_text]; try discriminate P.
    + apply read_literal; auto.
    + apply read_literal; auto.
    + apply read_literal; auto.
    + apply read_number. exact G.
    + cbn [printable] in P. unfold mark. fold quote. rewrite <- !app_assoc. cbn [app read_value]. rewrite skip_first by reflexivity. unfold str at 1 2 3. cbn [list_ascii_of_string].
      rewrite !starts_first by discriminate. change (beq quote quote) with true. cbv iota. rewrite (read_harmless s rest P). reflexivity.
  - destruct f as [|f]; [cbn in F; lia|]. cbn [text meaning] in *. set (item := fun kv : list byte * content => mark ++ fst kv ++ mark ++ str ":" ++ text (snd kv)) in *.
    cbn [printable] in P. rewrite <- !app_assoc. cbn [app str list_ascii_of_string read_value]. rewrite skip_first by reflexivity.
    rewrite !starts_first by discriminate. change (beq "{"%char quote) with false. change (beq "{"%char "-"%char) with false. change (beq "{"%char "{"%char) with true. cbv iota.
    assert (Step : forall gs f, gs <> [] -> Forall (fun kv => forall f rest, printable (snd kv) = true -> (length (text (snd kv)) <= f)%nat -> goes_on rest = false ->
          read_value f (text (snd kv) ++ rest) = Some (meaning (snd kv), rest)) gs ->
        forallb (fun kv => forallb harmless (fst kv) && printable (snd kv)) gs = true -> (length (joined (map item gs)) + 1 <= f)%nat ->
        read_members f (joined (map item gs) ++ "}"%char :: rest) = Some (map (fun kv => (fst kv, meaning (snd kv))) gs, rest)).
    { clear. induction gs as [|[k v] gs IHg]; intros f Ne IH P F; [congruence|]. inversion IH as [|? ? I1 I2]; subst. cbn [forallb fst snd] in P, I1.
      apply andb_true_iff in P as [P1 P2]. apply andb_true_iff in P1 as [P0 P1].
      destruct f as [|f]; [lia|]. cbn [map] in F |- *. rewrite joined_tail in F |- *. unfold item at 1 in F. unfold item at 1. cbn [fst snd] in F |- *.
      rewrite !app_length in F. cbn [length mark str list_ascii_of_string] in F. rewrite <- !app_assoc. unfold mark. fold quote. cbn [app read_members].
      rewrite skip_first by reflexivity. change (quote :: k ++ ?x) with ([quote] ++ (k ++ x)). rewrite (starts_app [quote]). rewrite (read_harmless k _ P0).
      change (str ":" ++ ?x) with (":"%char :: x). rewrite skip_first by reflexivity. change (":"%char :: ?x) with (str ":" ++ x). rewrite (starts_app (str ":")).
      destruct gs as [|kv gs].
      - cbn [map tail_text flat_map app]. rewrite (I1 f ("}"%char :: rest)) by (try assumption; try reflexivity; lia). rewrite skip_first by reflexivity.
        change ("}"%char :: rest) with (str "}" ++ rest) at 1. rewrite (starts_app (str "}")). reflexivity.
      - specialize (IHg f ltac:(discriminate) I2 P2).
        assert (J : tail_text (map item (kv :: gs)) = "," %char :: joined (map item (kv :: gs))).
        { cbn [map]. rewrite joined_tail. reflexivity. }
        rewrite J in F |- *. cbn [app]. rewrite (I1 f) by (try assumption; try reflexivity; lia). rewrite skip_first by reflexivity.
        unfold str at 1. cbn [list_ascii_of_string]. rewrite starts_first by discriminate. change (","%char :: ?x) with (str "," ++ x) at 1. rewrite (starts_app (str ",")).
        rewrite IHg by (cbn [length] in F; lia). reflexivity. }
    destruct gs as [|[k v] gs].
    + cbn [map joined app]. rewrite skip_first by reflexivity. change ("}"%char :: rest) with (str "}" ++ rest). change (["}"%char]) with (str "}"). rewrite (starts_app (str "}")). reflexivity.
    + match goal with |- context [skip ?x] => set (whole := x) end.
      assert (Fr : exists x, whole = quote :: x). { unfold whole. cbn [map]. rewrite joined_tail. unfold item at 1, mark. fold quote. eexists. reflexivity. }
      destruct Fr as [x E]. rewrite E. rewrite skip_first by reflexivity. rewrite starts_first by discriminate. rewrite <- E.
      pose proof (Step ((k, v) :: gs) f) as S. change (joined (map item ((k, v) :: gs)) ++ "}"%char :: rest) with whole in S.
      rewrite S by (try assumption; try discriminate; cbn [app str list_ascii_of_string length] in F; rewrite app_length in F; cbn [length] in F; lia). reflexivity.
  - destruct f as [|f]; [cbn in F; lia|]. cbn [text meaning] in *.
    cbn [printable] in P. rewrite <- !app_assoc. cbn [app str list_ascii_of_string read_value]. rewrite skip_first by reflexivity.
    rewrite !starts_first by discriminate. change (beq "["%char quote) with false. change (beq "["%char "-"%char) with false. change (beq "["%char "{"%char) with false. change (beq "["%char "["%char) with true. cbv iota.
    assert (Step : forall vs f, vs <> [] -> Forall (fun v => forall f rest, printable v = true -> (length (text v) <= f)%nat -> goes_on rest = false ->
          read_value f (text v ++ rest) = Some (meaning v, rest)) vs ->
        forallb printable vs = true -> (length (joined (map text vs)) + 1 <= f)%nat ->
        read_elements f (joined (map text vs) ++ "]"%char :: rest) = Some (map meaning vs, rest)).
    { clear. induction vs as [|v vs IHg]; intros f Ne IH P F; [congruence|]. inversion IH as [|? ? I1 I2]; subst. cbn [forallb] in P.
      apply andb_true_iff in P as [P1 P2].
      destruct f as [|f]; [lia|]. cbn [map] in F |- *. rewrite joined_tail in F |- *. rewrite !app_length in F. rewrite <- !app_assoc. cbn [read_elements].
      pose proof (text_nonempty v).
      destruct vs as [|w vs].
      - cbn [map tail_text flat_map app]. rewrite (I1 f ("]"%char :: rest)) by (try assumption; try reflexivity; lia). rewrite skip_first by reflexivity.
        change ("]"%char :: rest) with (str "]" ++ rest) at 1. rewrite (starts_app (str "]")). reflexivity.
      - specialize (IHg f ltac:(discriminate) I2 P2).
        assert (J : tail_text (map text (w :: vs)) = "," %char :: joined (map text (w :: vs))).
        { cbn [map]. rewrite joined_tail. reflexivity. }
        rewrite J in F |- *. cbn [app]. rewrite (I1 f) by (try assumption; try reflexivity; lia). rewrite skip_first by reflexivity.
        unfold str at 1. cbn [list_ascii_of_string]. rewrite starts_first by discriminate. change (","%char :: ?x) with (str "," ++ x) at 1. rewrite (starts_app (str ",")).
        rewrite IHg by (cbn [length] in F; lia). reflexivity. }
    destruct vs as [|v vs].
    + cbn [map joined app]. rewrite skip_first by reflexivity. change ("]"%char :: rest) with (str "]" ++ rest). change (["]"%char]) with (str "]"). rewrite (starts_app (str "]")). reflexivity.
    + match goal with |- context [skip ?x] => set (whole := x) end.
      assert (Fr : exists c x, whole = c :: x /\ white c = false /\ N_of_byte c <> 93).
      { unfold whole. cbn [map]. rewrite joined_tail. destruct (text_first v) as (c & r & -> & W & C1 & C2). eexists _, _. split; [reflexivity|]. split; assumption. }
      destruct Fr as (c & x & E & W & C). rewrite E. rewrite skip_first by exact W. rewrite starts_first by (intros E'; apply C; rewrite <- E'; reflexivity). rewrite <- E.
      pose proof (Step (v :: vs) f) as S. change (joined (map text (v :: vs)) ++ "]"%char :: rest) with whole in S.
      rewrite S by (try assumption; try discriminate; cbn [app str list_ascii_of_string length] in F; rewrite app_length in F; cbn [length] in F; lia). reflexivity.
Qed.
Lemma read_whole v : printable v = true -> read_json (text v) = Some (meaning v).
Proof.
  intros P. unfold read_json. pose proof (read_content v (S (length (text v))) [] P ltac:(lia) eq_refl) as R. rewrite app_nil_r in R. rewrite R. reflexivity.
Qed.

(** ** Loading it *)
Section Loading.
  Variable nf : bool.

  Definition long_scalar (s : scalar) : scalar := match s with SInt _ z => SInt I64 z | _ => s end.
  Lemma json_leaf_ok d s : printable (CScalar s) = true -> storable (CScalar s) = true -> room d (text_size (CScalar s)) ->
    let '(i, d') := json_leaf (meaning (CScalar s)) d in
    ext d d' /\ reads d' i (long_scalar s) /\ N.of_nat (length (sbuf d')) = N.of_nat (length (sbuf d)) + text_size (CScalar s).
  Proof.
    intros P St Rm. unfold json_leaf.
    assert (Fz : forall k z, s = SInt k z -> fits I64 z = true).
    { intros k z ->. apply fits_iff. destruct k; try discriminate P; cbn [printable signed] in P; apply fits_iff in P; cbn in P |- *; lia. }
    assert (E : scalar_of (meaning (CScalar s)) = Some (long_scalar s)).
    { destruct s as [|b|k z|n|n|s]; try discriminate P; try reflexivity. cbn [meaning scalar_of long_scalar]. rewrite (Fz k z eq_refl). reflexivity. }
    rewrite E. split; [apply build_ext|].
    assert (Sb : N.of_nat (length (sbuf (build 0 d (long_scalar s)))) = N.of_nat (length (sbuf d)) + text_size (CScalar s)).
    { destruct s as [|b|k z|n|n|s]; try discriminate P; cbn [long_scalar text_size]; try (cbn; lia).
      cbn [build sbuf]. rewrite app_length, Nat2N.inj_add, string_room by exact St. reflexivity. }
    split; [|exact Sb]. apply build_reads.
    - destruct s as [|b|k z|n|n|s]; try discriminate P; cbn [long_scalar scalar_ok]; auto.
      + apply fits_iff, (Fz k z eq_refl).
      + cbn in St. unfold small in St. lia.
    - destruct s as [|b|k z|n|n|s]; cbn; auto; discriminate P.
    - unfold room in Rm. lia.
  Qed.

  Lemma load_content v : forall d, printable v = true -> storable v = true -> room d (text_size v) ->
    let '(t, d') := load nf (meaning v) d in
    ext d d' /\ holds d' t (long v) /\ N.of_nat (length (sbuf d')) = N.of_nat (length (sbuf d)) + text_size v.
  Proof.
    induction v as [s|gs IH|vs IH] using content_induction; intros d P St Rm.
    - pose proof (json_leaf_ok d s P St Rm) as L.
      assert (E : load nf (meaning (CScalar s)) d = (let '(i, d') := json_leaf (meaning (CScalar s)) d in (TLeaf i, d'))) by (destruct s; reflexivity).
      rewrite E. destruct (json_leaf (meaning (CScalar s)) d) as [i' d']. destruct L as (L1 & L2 & L3). split; [exact L1|]. split; [|exact L3].
      assert (long (CScalar s) = CScalar (long_scalar s)) as -> by (destruct s; reflexivity). constructor. exact L2.
    - cbn [storable] in St. apply andb_true_iff in St as [_ Al]. cbn [printable] in P. cbn [meaning load long].
      match goal with |- context [(fix go (l : list (list byte * json)) (d : doc) {struct l} : list (nat * tree) * doc := _) _ _] =>
        set (go := (fix go (l : list (list byte * json)) (d : doc) {struct l} : list (nat * tree) * doc := _)) end.
      assert (Main : forall gs d, Forall (fun kv => forall d, printable (snd kv) = true -> storable (snd kv) = true -> room d (text_size (snd kv)) ->
            let '(t, d') := load nf (meaning (snd kv)) d in
            ext d d' /\ holds d' t (long (snd kv)) /\ N.of_nat (length (sbuf d')) = N.of_nat (length (sbuf d)) + text_size (snd kv)) gs ->
          forallb (fun kv => forallb harmless (fst kv) && printable (snd kv)) gs = true ->
          forallb (fun kv => small (fst kv) && storable (snd kv)) gs = true -> room d (text_size (CObj gs)) ->
          let '(fs', d') := go (map (fun kv => (fst kv, meaning (snd kv))) gs) d in
          ext d d' /\ fields_hold d' fs' (map (fun kv => (fst kv, long (snd kv))) gs) /\ N.of_nat (length (sbuf d')) = N.of_nat (length (sbuf d)) + text_size (CObj gs)).
      { clear. induction gs as [|[k v] gs IHg]; intros d IH P Al Rm; [split; [apply ext_refl|]; split; [constructor|cbn; lia]|].
        inversion IH as [|? ? I1 I2]; subst. cbn [fst snd] in I1. cbn [forallb fst snd] in Al, P. apply andb_true_iff in Al as [A1 A2]. apply andb_true_iff in A1 as [A0 A1].
        apply andb_true_iff in P as [P1 P2]. apply andb_true_iff in P1 as [P0 P1].
        cbn [map fst snd text_size fold_right] in *. unfold room in Rm. cbn [text_size fold_right fst snd] in Rm.
        set (rest := fold_right (fun (kv : list byte * content) n => N.of_nat (length (fst kv)) + 5 + text_size (snd kv) + n) 0 gs) in *.
        unfold go. fold go.
        assert (One : let '(i, t, d1) := (if nf then let '(i, e) := json_leaf (JStr k) d in let '(t, e') := load nf (meaning v) e in (i, t, e')
                            else let '(t, e) := load nf (meaning v) d in let '(i, e') := json_leaf (JStr k) e in (i, t, e')) in
            ext d d1 /\ reads d1 i (SString k) /\ holds d1 t (long v) /\ N.of_nat (length (sbuf d1)) = N.of_nat (length (sbuf d)) + (N.of_nat (length k) + 5) + text_size v).
        { destruct nf.
          - pose proof (json_leaf_ok d (SString k) P0 A0) as L. cbn [meaning] in L. destruct (json_leaf (JStr k) d) as [i' e] eqn:El.
            destruct L as (L1 & L2 & L3); [unfold room; cbn [text_size]; lia|]. cbn [long_scalar text_size] in *.
            pose proof (I1 e P1 A1) as B. destruct (load true (meaning v) e) as [t' e'].
            destruct B as (B1 & B2 & B3); [unfold room; lia|]. split; [eapply ext_trans; eassumption|]. split; [eapply reads_ext; eassumption|]. split; [exact B2|lia].
          - pose proof (I1 d P1 A1) as B. destruct (load false (meaning v) d) as [t' e].
            destruct B as (B1 & B2 & B3); [unfold room; lia|].
            pose proof (json_leaf_ok e (SString k) P0 A0) as L. cbn [meaning] in L. destruct (json_leaf (JStr k) e) as [i' e'] eqn:El.
            destruct L as (L1 & L2 & L3); [unfold room; cbn [text_size]; lia|]. cbn [long_scalar text_size] in *.
            split; [eapply ext_trans; eassumption|]. split; [exact L2|]. split; [eapply holds_ext; eassumption|lia]. }
        destruct (if nf then let '(i, e) := json_leaf (JStr k) d in let '(t, e') := load nf (meaning v) e in (i, t, e')
                            else let '(t, e) := load nf (meaning v) d in let '(i, e') := json_leaf (JStr k) e in (i, t, e')) as [[i' t'] d1].
        destruct One as (O1 & O2 & O3 & O4).
        specialize (IHg d1 I2 P2 A2). destruct (go _ d1) as [fs' d2]. destruct IHg as (G1 & G2 & G3); [unfold room; cbn [text_size]; fold rest; lia|].
        split; [eapply ext_trans; eassumption|]. split; [constructor; [eapply reads_ext; eassumption|eapply holds_ext; eassumption|exact G2]|].
        cbn [text_size] in G3. fold rest in G3. lia. }
      specialize (Main gs d IH P Al Rm). destruct (go _ d) as [fs' d']. destruct Main as (M1 & M2 & M3). split; [exact M1|]. split; [constructor; exact M2|exact M3].
    - cbn [storable] in St. apply andb_true_iff in St as [_ Al]. cbn [printable] in P. cbn [meaning load long].
      match goal with |- context [(fix go (l : list json) (d : doc) {struct l} : list tree * doc := _) _ _] =>
        set (go := (fix go (l : list json) (d : doc) {struct l} : list tree * doc := _)) end.
      assert (Main : forall vs d, Forall (fun v => forall d, printable v = true -> storable v = true -> room d (text_size v) ->
            let '(t, d') := load nf (meaning v) d in
            ext d d' /\ holds d' t (long v) /\ N.of_nat (length (sbuf d')) = N.of_nat (length (sbuf d)) + text_size v) vs ->
          forallb printable vs = true -> forallb storable vs = true -> room d (text_size (CArr vs)) ->
          let '(ts', d') := go (map meaning vs) d in
          ext d d' /\ elements_hold d' ts' (map long vs) /\ N.of_nat (length (sbuf d')) = N.of_nat (length (sbuf d)) + text_size (CArr vs)).
      { clear. induction vs as [|v vs IHg]; intros d IH P Al Rm; [split; [apply ext_refl|]; split; [constructor|cbn; lia]|].
        inversion IH as [|? ? I1 I2]; subst. cbn [forallb] in Al, P. apply andb_true_iff in Al as [A1 A2]. apply andb_true_iff in P as [P1 P2].
        cbn [map text_size fold_right] in *. unfold room in Rm. cbn [text_size fold_right] in Rm.
        set (rest := fold_right (fun (v : content) n => text_size v + n) 0 vs) in *.
        unfold go. fold go. pose proof (I1 d P1 A1) as B. destruct (load nf (meaning v) d) as [t' d1].
        destruct B as (B1 & B2 & B3); [unfold room; lia|].
        specialize (IHg d1 I2 P2 A2). destruct (go _ d1) as [fs' d2]. destruct IHg as (G1 & G2 & G3); [unfold room; cbn [text_size]; fold rest; lia|].
        split; [eapply ext_trans; eassumption|]. split; [constructor; [eapply holds_ext; eassumption|exact G2]|].
        cbn [text_size] in G3. fold rest in G3. lia. }
      specialize (Main vs d IH P Al Rm). destruct (go _ d) as [fs' d']. destruct Main as (M1 & M2 & M3). split; [exact M1|]. split; [constructor; exact M2|exact M3].
  Qed.
End Loading.

Lemma text_ok ft d t v : holds d t v -> printable v = true -> exists s, print ft d t = Ok s /\ read_json s = Some (meaning v).
Proof. intros H P. exists (text v). split; [apply print_content; assumption|apply read_whole; exact P]. Qed.
Lemma load_ok nf gs : printable (CObj gs) = true -> storable (CObj gs) = true -> text_size (CObj gs) < 2 ^ 56 ->
  exists t d, load_document nf (meaning (CObj gs)) = Ok (t, d) /\ holds d t (long (CObj gs)).
Proof.
  intros P St Rm. pose proof (load_content nf (CObj gs) {| tape := []; sbuf := [] |} P St) as L.
  destruct (load nf (meaning (CObj gs)) {| tape := []; sbuf := [] |}) as [t d] eqn:E. exists t, d. unfold load_document. cbn [meaning]. cbn [meaning] in E. rewrite E.
  split; [reflexivity|]. apply L. unfold room. cbn [sbuf length]. lia.
Qed.

(** ** Findings *)
Lemma print_int ft d i k z : k <> I128 -> reads d i (SInt k z) -> print_element ft d i = Ok (int_text k z).
Proof.
  intros K (T & Nl & G). unfold print_element. rewrite T. cbn [rbind type_code].
  assert (code k =? T_BOOL = false) as -> by (destruct k; reflexivity). assert (code k =? T_STRING = false) as -> by (destruct k; reflexivity).
  assert (code k =? T_NA = false) as -> by (destruct k; reflexivity). assert ((code k =? T_FLOAT) || (code k =? T_DOUBLE) = false) as -> by (destruct k; reflexivity).
  rewrite kind_of_code. destruct k; try congruence; rewrite (value_bind _ _ _ G); reflexivity.
Qed.
Lemma read_signed z : read_json (signed_text z) = Some (JInt z).
Proof. unfold read_json. pose proof (read_number (length (signed_text z)) z [] eq_refl) as R. rewrite app_nil_r in R. rewrite R. reflexivity. Qed.
Lemma wide_number ft d i k z : k = I64 \/ k = U64 -> reads d i (SInt k z) -> fits (if signed k then I32 else U32) z = false ->
  exists s z', print ft d (TLeaf i) = Ok s /\ read_json s = Some (JInt z') /\ z' <> z.
Proof.
  intros K R F. cbn [print]. exists (int_text k z), (cast (if signed k then I32 else U32) z).
  split; [apply print_int; [destruct K; subst; discriminate|exact R]|].
  assert (Fc : fits (if signed k then I32 else U32) (cast (if signed k then I32 else U32) z) = true) by apply of_pattern_fits.
  split; [|intros E; rewrite E in Fc; congruence]. unfold int_text. destruct (signed k); [apply read_signed|].
  rewrite <- (read_signed (cast U32 z)). unfold signed_text. apply fits_iff in Fc. pose proof (proj1 Fc : (0 <= cast U32 z)%Z). destruct (Z.ltb_spec (cast U32 z) 0); [lia|reflexivity].
Qed.
Lemma huge_number ft d i z : reads d i (SInt I128 z) -> exists s, print ft d (TLeaf i) = Ok s /\ read_json s = None.
Proof. intros (T & _ & _). exists (str "hugeint"). split; [cbn [print]; unfold print_element; rewrite T; reflexivity|reflexivity]. Qed.
