From Verif Require Import Bytes Outcome MsgpackModel MsgpackProofs Crc32cModel Crc32cSpec Crc32cProofs WalModel WalSpec.
From Coq Require Import ZifyBool ZifyNat ZifyN.
Ltac Zify.zify_post_hook ::= Z.div_mod_to_equations.
Local Open Scope N_scope.

(** ** Reading bytes *)
Lemma skipn_pre {A} (pre x : list A) : skipn (length pre) (pre ++ x) = x.
Proof. rewrite skipn_app, skipn_all, Nat.sub_diag. reflexivity. Qed.

Lemma firstn_pre {A} (x post : list A) n : n = length x -> firstn n (x ++ post) = x.
Proof. intros ->. rewrite firstn_app, firstn_all, Nat.sub_diag. cbn. apply app_nil_r. Qed.

Lemma pread_full file loc n :
  (loc + n <= length file)%nat -> pread_loop n file loc n = firstn n (skipn loc file).
Proof.
  intros H. destruct n as [|n]; [reflexivity|].
  cbn [pread_loop].
  assert (L : length (firstn (S n) (skipn loc file)) = S n).
  { rewrite firstn_length, skipn_length. lia. }
  destruct (firstn (S n) (skipn loc file)) as [|b l] eqn:E; [discriminate|].
  rewrite L, Nat.sub_diag. destruct n; cbn [pread_loop]; apply app_nil_r.
Qed.

Lemma read_buffer_full file loc n :
  (loc + n <= length file)%nat -> read_buffer file loc n = firstn n (skipn loc file).
Proof.
  intros H. unfold read_buffer. rewrite pread_full by exact H.
  rewrite firstn_length, skipn_length.
  replace (n - Nat.min n (length file - loc))%nat with O by lia. cbn. apply app_nil_r.
Qed.

Lemma read_buffer_at pre x post :
  read_buffer (pre ++ x ++ post) (length pre) (length x) = x.
Proof.
  rewrite read_buffer_full by (rewrite !app_length; lia).
  rewrite skipn_pre. apply firstn_pre; reflexivity.
Qed.

Lemma read_buffer_at' file loc n pre x post :
  file = pre ++ x ++ post -> loc = length pre -> n = length x -> read_buffer file loc n = x.
Proof. intros -> -> ->. apply read_buffer_at. Qed.

Lemma read_buffer_eof file loc n :
  (length file <= loc)%nat -> read_buffer file loc n = repeat (byte_of_N 0) n.
Proof.
  intros H. unfold read_buffer.
  replace (pread_loop n file loc n) with (@nil byte).
  - cbn. rewrite Nat.sub_0_r. reflexivity.
  - destruct n as [|n]; [reflexivity|]. cbn [pread_loop].
    rewrite skipn_all2 by exact H. rewrite firstn_nil. reflexivity.
Qed.

Lemma read_size_eof file loc : (length file <= loc)%nat -> read_size file loc = 0.
Proof. intros H. unfold read_size. rewrite read_buffer_eof by exact H. reflexivity. Qed.

Lemma crc_byte_lt c b : c < 2^32 -> crc_byte c b < 2^32.
Proof.
  intros H. unfold crc_byte.
  assert (H0 : N.lxor c (N_of_byte b) < 2^32).
  { apply lxor_lt; [exact H|]. pose proof (N_of_byte_lt b). lia. }
  revert H0. generalize (N.lxor c (N_of_byte b)). intros d Hd.
  generalize 8%nat as k. induction k as [|k IH]; [exact Hd|]. apply crc_shift_lt. exact IH.
Qed.

Lemma crc32c_lt l : crc32c l < 2^32.
Proof.
  unfold crc32c. apply lxor_lt; [|reflexivity].
  generalize (eq_refl : (0xFFFFFFFF <? 2^32) = true). generalize 0xFFFFFFFF.
  induction l as [|b l IH]; intros c Hc; cbn [fold_left].
  - apply N.ltb_lt; exact Hc.
  - apply IH. apply N.ltb_lt. apply crc_byte_lt. apply N.ltb_lt. exact Hc.
Qed.

Lemma append_crc32_be c : append_crc32 c = be 4 c.
Proof. unfold append_crc32. cbn [be]. rewrite N.div_1_r. reflexivity. Qed.

Lemma append_size_be c : append_size c = be 2 c.
Proof. unfold append_size. cbn [be]. rewrite N.div_1_r. reflexivity. Qed.

Lemma pack_length pl : length (pack pl) = (length pl + 6)%nat.
Proof.
  unfold pack. rewrite !app_length, append_crc32_be, append_size_be, !be_length. lia.
Qed.

(** ** One record *)
Lemma read_size_pack pre pl post :
  read_size (pre ++ pack pl ++ post) (length pre) = N.of_nat (length pl) mod 2^16.
Proof.
  unfold read_size.
  rewrite (read_buffer_at' _ _ _ pre (append_size (N.of_nat (length pl) mod 2^16))
             (pl ++ append_crc32 (crc32c pl) ++ post)).
  - unfold append_size. rewrite !N_of_byte_of_N. lia.
  - unfold pack. rewrite <- !app_assoc. reflexivity.
  - reflexivity.
  - reflexivity.
Qed.

Lemma read_back pre pl post :
  N.of_nat (length pl) < 2^16 ->
  let file := pre ++ pack pl ++ post in
  let out := read_buffer file (length pre + 2) (N.to_nat (N.of_nat (length pl)) + 4) in
  read_size file (length pre) = N.of_nat (length pl) /\
  out = pl ++ append_crc32 (crc32c pl) /\
  read_crc32 out (N.to_nat (N.of_nat (length pl))) = crc32c pl /\
  firstn (N.to_nat (N.of_nat (length pl))) out = pl /\
  skipn (next_index (length pre) (N.of_nat (length pl))) file = post.
Proof.
  intros H file out.
  assert (Hout : out = pl ++ append_crc32 (crc32c pl)).
  { unfold out, file.
    apply (read_buffer_at' _ _ _ (pre ++ append_size (N.of_nat (length pl) mod 2^16)) _ post).
    - unfold pack. rewrite <- !app_assoc. reflexivity.
    - rewrite app_length. reflexivity.
    - rewrite app_length, append_crc32_be, be_length, Nat2N.id. reflexivity. }
  split; [|split; [|split; [|split]]].
  - unfold file. rewrite read_size_pack. apply N.mod_small. exact H.
  - exact Hout.
  - rewrite Hout. unfold read_crc32. rewrite Nat2N.id, skipn_pre, append_crc32_be.
    rewrite firstn_all2 by (rewrite be_length; lia).
    rewrite unbe_be, N.mod_small; [reflexivity|apply crc32c_lt].
  - rewrite Hout, Nat2N.id. apply firstn_pre. reflexivity.
  - unfold file, next_index. rewrite Nat2N.id. rewrite app_assoc.
    replace (length pre + length pl + 2 + 4)%nat with (length (pre ++ pack pl)).
    + apply skipn_pre.
    + rewrite app_length, pack_length. lia.
Qed.

(** ** The payload of a record *)
Lemma uint_length n : (length (enc_uint n) <= 9)%nat.
Proof.
  unfold enc_uint. repeat match goal with |- context [if ?c then _ else _] => destruct c end;
  cbn [length]; rewrite ?be_length; lia.
Qed.

Lemma uint_length32 n : n < 2^32 -> (length (enc_uint n) <= 5)%nat.
Proof.
  intros H. unfold enc_uint.
  repeat match goal with |- context [?a <? ?b] => destruct (N.ltb_spec a b) end;
  cbn [length]; rewrite ?be_length; lia.
Qed.

Lemma payload_wf c i n p : c < 2^32 -> i < 2^64 -> fits n p = true ->
  wf (MArr [MUint c; MUint i; n; p]) = true.
Proof.
  intros Hc Hi H. unfold fits in H. apply andb_true_iff in H as [H H3]. apply andb_true_iff in H as [H1 H2].
  cbn [wf forallb length]. rewrite H1, H2.
  replace (c <? 2^64) with true by (symmetry; apply N.ltb_lt; lia).
  replace (i <? 2^64) with true by (symmetry; apply N.ltb_lt; lia). reflexivity.
Qed.

Lemma payload_length c i n p : c < 2^32 -> i < 2^64 -> fits n p = true ->
  0 < N.of_nat (length (payload c i n p)) < 2^16.
Proof.
  intros Hc Hi H. unfold fits in H. apply andb_true_iff in H as [H H3]. apply N.leb_le in H3.
  unfold payload. cbn [enc flat_map]. rewrite !app_length.
  pose proof (uint_length32 c Hc). pose proof (uint_length i).
  replace (length (enc_arr_head _)) with 1%nat by reflexivity. cbn [length]. lia.
Qed.

Lemma unpack_payload c i n p r : c < 2^32 -> i < 2^64 -> fits n p = true ->
  unpack (payload c i n p ++ r) = Some (MArr [MUint c; MUint i; n; p], r).
Proof. intros. apply unpack_enc. apply payload_wf; assumption. Qed.

Definition mk_record c i n p : record_t :=
  {| rsize := N.of_nat (length (payload c i n p)); rcrc := crc32c (payload c i n p);
     rbody := Some (c, i, n, p) |}.

Lemma read_record_pack pre c i n p post : c < 2^32 -> i < 2^64 -> fits n p = true ->
  read_record (pre ++ pack (payload c i n p) ++ post) (length pre) = Ok (mk_record c i n p).
Proof.
  intros Hc Hi Hf. pose proof (payload_length c i n p Hc Hi Hf) as [L0 L].
  destruct (read_back pre (payload c i n p) post L) as (R1 & R2 & R3 & R4 & R5).
  unfold read_record. rewrite R1, R3, R4. rewrite R2.
  replace (0 <? _) with true by (symmetry; apply N.ltb_lt; exact L0).
  rewrite N.eqb_refl, unpack_payload by assumption.
  rewrite N.mod_small by exact Hc. reflexivity.
Qed.

Lemma read_id_pack pre c i n p post : c < 2^32 -> i < 2^64 -> fits n p = true ->
  read_id (pre ++ pack (payload c i n p) ++ post) (length pre) = Ok i.
Proof.
  intros Hc Hi Hf. pose proof (payload_length c i n p Hc Hi Hf) as [L0 L].
  unfold read_id. rewrite read_size_pack, N.mod_small by exact L.
  replace (0 <? _) with true by (symmetry; apply N.ltb_lt; exact L0).
  rewrite (read_buffer_at' _ _ _ (pre ++ append_size (N.of_nat (length (payload c i n p)) mod 2^16))
             (payload c i n p) (append_crc32 (crc32c (payload c i n p)) ++ post)).
  - unfold unpack_wal_id. rewrite <- (app_nil_r (payload c i n p)), unpack_payload by assumption. reflexivity.
  - unfold pack. rewrite <- !app_assoc. reflexivity.
  - rewrite app_length. reflexivity.
  - apply Nat2N.id.
Qed.

Lemma next_index_pack pre pl :
  next_index (length pre) (N.of_nat (length pl)) = length (pre ++ pack pl).
Proof. unfold next_index. rewrite Nat2N.id, app_length, pack_length. lia. Qed.

(** ** A whole log *)
Fixpoint file_of (i : N) (ents : list (N * (mp * mp))) : list byte :=
  match ents with
  | [] => []
  | (c, (n, p)) :: r => pack (payload c i n p) ++ file_of (i + 1) r
  end.

Definition ent_ok (e : N * (mp * mp)) : Prop := fst e < 2^32 /\ fits (fst (snd e)) (snd (snd e)) = true.

Fixpoint records_of (i : N) (ents : list (N * (mp * mp))) : list record_t :=
  match ents with
  | [] => []
  | (c, (n, p)) :: r => mk_record c i n p :: records_of (i + 1) r
  end.

Lemma file_of_app i a b : file_of i (a ++ b) = file_of i a ++ file_of (i + N.of_nat (length a)) b.
Proof.
  revert i. induction a as [|[c [n p]] a IH]; intro i; cbn [app file_of length].
  - rewrite N.add_0_r. reflexivity.
  - rewrite IH, <- app_assoc. do 2 f_equal. f_equal. lia.
Qed.

Lemma file_of_length i ents : (6 * length ents <= length (file_of i ents))%nat.
Proof.
  revert i. induction ents as [|[c [n p]] ents IH]; intro i; cbn [file_of length]; [lia|].
  rewrite app_length, pack_length. specialize (IH (i + 1)). lia.
Qed.

Lemma load_loop_file fuel pre i ents :
  Forall ent_ok ents -> 0 < i -> i + N.of_nat (length ents) <= 2^64 -> (length ents < fuel)%nat ->
  load_loop fuel (pre ++ file_of i ents) (length pre) = Ok (records_of i ents).
Proof.
  revert fuel pre i. induction ents as [|[c [n p]] ents IH]; intros fuel pre i Hok Hi Hb Hf;
    (destruct fuel as [|fuel]; [lia|]); cbn [load_loop].
  - cbn [file_of]. rewrite app_nil_r. unfold read_record. rewrite read_size_eof by lia. reflexivity.
  - inversion Hok as [|? ? [Hc Hfit] Hok']; subst. cbn [fst snd] in *.
    cbn [length] in *. cbn [file_of].
    rewrite read_record_pack by (auto; lia). cbn [rbind].
    pose proof (payload_length c i n p Hc ltac:(lia) Hfit) as [L0 L].
    unfold is_valid. cbn [rsize mk_record].
    replace (0 <? _) with true by (symmetry; apply N.ltb_lt; exact L0).
    rewrite next_index_pack. rewrite app_assoc. rewrite IH; auto; try lia.
Qed.

Lemma init_id_file fuel pre i ents id0 :
  Forall ent_ok ents -> 0 < i -> i + N.of_nat (length ents) <= 2^64 -> (length ents < fuel)%nat ->
  init_id fuel (pre ++ file_of i ents) (length pre) id0 =
  Ok (match ents with [] => id0 | _ => i + N.of_nat (length ents) - 1 end).
Proof.
  revert fuel pre i id0. induction ents as [|[c [n p]] ents IH]; intros fuel pre i id0 Hok Hi Hb Hf;
    (destruct fuel as [|fuel]; [lia|]); cbn [init_id].
  - cbn [file_of]. rewrite app_nil_r. unfold read_id. rewrite read_size_eof by lia. reflexivity.
  - inversion Hok as [|? ? [Hc Hfit] Hok']; subst. cbn [fst snd length] in *. cbn [file_of].
    rewrite read_id_pack by (auto; lia). cbn [rbind].
    replace (0 <? i) with true by (symmetry; apply N.ltb_lt; exact Hi).
    pose proof (payload_length c i n p Hc ltac:(lia) Hfit) as [L0 L].
    rewrite read_size_pack, N.mod_small by exact L.
    rewrite next_index_pack, app_assoc, IH by (auto; lia).
    f_equal. destruct ents; cbn [length]; lia.
Qed.

Lemma skip_records_file k pre i ents :
  Forall ent_ok ents -> 0 < i -> i + N.of_nat (length ents) <= 2^64 ->
  skip_records k (pre ++ file_of i ents) (length pre) =
  if (k <=? length ents)%nat then Some (length (pre ++ file_of i (firstn k ents))) else None.
Proof.
  revert pre i ents. induction k as [|k IH]; intros pre i ents Hok Hi Hb; cbn [skip_records].
  - cbn. rewrite app_nil_r. reflexivity.
  - destruct ents as [|[c [n p]] ents].
    + cbn [file_of]. rewrite app_nil_r, read_size_eof by lia. reflexivity.
    + inversion Hok as [|? ? [Hc Hfit] Hok']; subst. cbn [fst snd length] in *. cbn [file_of].
      pose proof (payload_length c i n p Hc ltac:(lia) Hfit) as [L0 L].
      rewrite read_size_pack, N.mod_small by exact L.
      replace (0 <? _) with true by (symmetry; apply N.ltb_lt; exact L0).
      rewrite next_index_pack, app_assoc, IH by (auto; lia).
      cbn [firstn file_of Nat.leb]. rewrite <- app_assoc. reflexivity.
Qed.

Lemma split_file i ents k : (k <= length ents)%nat ->
  file_of i ents = file_of i (firstn k ents) ++ file_of (i + N.of_nat k) (skipn k ents).
Proof.
  intros H. rewrite <- (firstn_skipn k ents) at 1. rewrite file_of_app, firstn_length_le by exact H.
  reflexivity.
Qed.

Lemma Forall_skipn {A} (P : A -> Prop) k l : Forall P l -> Forall P (skipn k l).
Proof.
  intros H. rewrite Forall_forall in *. intros x Hx. apply H.
  rewrite <- (firstn_skipn k l). apply in_or_app. right. exact Hx.
Qed.

Lemma load_file ents k :
  Forall ent_ok ents -> N.of_nat (length ents) < 2^64 -> k < 2^64 - 1 ->
  load (file_of 1 ents) k = Ok (records_of (1 + k) (skipn (N.to_nat k) ents)).
Proof.
  intros Hok Hb Hk. unfold load. rewrite N.mod_small by lia.
  unfold find_start_record.
  assert (R0 : ents = [] \/ read_id (file_of 1 ents) 0 = Ok 1).
  { destruct ents as [|[c0 [n0 p0]] ents0]; [left; reflexivity|right].
    pose proof (Forall_inv Hok) as [Hc Hfit]. cbn [fst snd] in *.
    cbn [file_of]. apply (read_id_pack []); auto; lia. }
  destruct R0 as [->|R0].
  { cbn [file_of]. unfold read_id. rewrite read_size_eof by (cbn; lia). cbn.
    rewrite skipn_nil. reflexivity. }
  rewrite R0. cbn [rbind]. change (0 <? 1) with true. cbv iota.
  replace (k + 1 - 1) with k by lia.
  pose proof (file_of_length 1 ents) as HL.
  rewrite (skip_records_file _ [] 1 ents Hok ltac:(lia) ltac:(lia)).
  destruct (Nat.leb_spec (N.to_nat (N.min k (N.of_nat (length (file_of 1 ents)) + 1))) (length ents)) as [Hle|Hgt].
  - assert (Hk2 : (N.to_nat k <= length ents)%nat) by lia.
    replace (N.min k (N.of_nat (length (file_of 1 ents)) + 1)) with k by lia.
    cbn [app].
    rewrite (split_file 1 ents (N.to_nat k) Hk2). rewrite N2Nat.id.
    destruct (skipn (N.to_nat k) ents) as [|[c [n p]] rest] eqn:Es.
    + cbn [file_of]. rewrite app_nil_r. unfold read_id. rewrite read_size_eof by lia.
      cbn [N.ltb N.compare rbind]. replace (k + 1 =? 0) with false by (symmetry; apply N.eqb_neq; lia).
      reflexivity.
    + pose proof (Forall_skipn _ (N.to_nat k) _ Hok) as Hs. rewrite Es in Hs.
      pose proof (skipn_length (N.to_nat k) ents) as Hlen. rewrite Es in Hlen. cbn [length] in Hlen.
      pose proof (Forall_inv Hs) as [Hc Hfit]. cbn [fst snd] in *.
      cbn [file_of]. rewrite read_id_pack by (auto; lia). cbn [rbind].
      rewrite (N.add_comm k 1), N.eqb_refl.
      pose proof (load_loop_file (S (length (file_of 1 ents))) (file_of 1 (firstn (N.to_nat k) ents)) (1 + k)
                    ((c, (n, p)) :: rest) Hs ltac:(lia) ltac:(cbn [length]; lia) ltac:(cbn [length]; lia)) as LL.
      cbn [file_of] in LL.
      rewrite (split_file 1 ents (N.to_nat k) Hk2) in LL at 1. rewrite N2Nat.id, Es in LL.
      cbn [file_of] in LL. exact LL.
  - rewrite skipn_all2 by lia. reflexivity.
Qed.

(** ** Runs *)
Definition Inv (ops : list (mp * mp)) (w : wal) : Prop :=
  exists ents, wfile w = file_of 1 ents /\ map snd ents = ops /\ Forall ent_ok ents /\
               wid w = N.of_nat (length ops) /\ wcrc w < 2^32.

Lemma write_data_inv ops w n p : Inv ops w -> fits n p = true -> N.of_nat (length ops) + 1 < 2^64 ->
  Inv (ops ++ [(n, p)]) (write_data w (n, p)).
Proof.
  intros (ents & Hf & Hm & Hok & Hid & Hc) Hfit Hb.
  exists (ents ++ [(wcrc w, (n, p))]).
  assert (HL : length ents = length ops) by (rewrite <- Hm, map_length; reflexivity).
  unfold write_data. cbn [wfile wid wcrc fst snd]. rewrite Hid, N.mod_small by exact Hb.
  repeat split.
  - rewrite file_of_app, Hf, HL. cbn [file_of]. rewrite app_nil_r.
    rewrite (N.add_comm 1). reflexivity.
  - rewrite map_app, Hm. reflexivity.
  - apply Forall_app. split; [exact Hok|]. repeat constructor; cbn; assumption.
  - rewrite app_length. cbn. lia.
  - apply crc32c_lt.
Qed.

Lemma open_inv ops w : Inv ops w -> N.of_nat (length ops) < 2^64 ->
  exists w', open_wal (wfile w) = Ok w' /\ Inv ops w' /\ wfile w' = wfile w.
Proof.
  intros (ents & Hf & Hm & Hok & Hid & Hc) Hb.
  assert (HL : length ents = length ops) by (rewrite <- Hm, map_length; reflexivity).
  unfold open_wal. rewrite Hf.
  pose proof (file_of_length 1 ents).
  rewrite (init_id_file _ [] 1 ents 0 Hok) by lia. cbn [rbind].
  eexists. split; [reflexivity|]. split; [|reflexivity].
  exists ents. cbn [wfile wid wcrc].
  split; [reflexivity|]. split; [exact Hm|]. split; [exact Hok|]. split; [|reflexivity].
  destruct ents; cbn [length] in *; lia.
Qed.

Lemma run_inv_gen es : forall w ops, Inv ops w -> forallb event_fits es = true ->
  N.of_nat (length (ops ++ logged es)) < 2^64 ->
  exists w', fold_left wal_step es (Ok w) = Ok w' /\ Inv (ops ++ logged es) w'.
Proof.
  induction es as [|e es IH]; intros w ops HI Hfit Hb.
  - exists w. cbn. rewrite app_nil_r. split; [reflexivity|exact HI].
  - cbn [forallb] in Hfit. apply andb_true_iff in Hfit as [He Hes].
    cbn [fold_left]. rewrite app_length in Hb.
    destruct e as [n p|]; cbn [wal_step rbind] in *.
    + change (logged (Append n p :: es)) with ((n, p) :: logged es) in *. cbn [length] in Hb.
      replace (ops ++ (n, p) :: logged es) with ((ops ++ [(n, p)]) ++ logged es)
        by (rewrite <- app_assoc; reflexivity).
      apply IH; [|exact Hes|rewrite !app_length; cbn [length]; lia].
      apply write_data_inv; auto. lia.
    + change (logged (Reopen :: es)) with (logged es) in *.
      destruct (open_inv ops w HI) as (w' & -> & HI' & _); [lia|].
      apply IH; [exact HI'|exact Hes|rewrite app_length; lia].
Qed.

Lemma run_inv es : forallb event_fits es = true -> N.of_nat (length (logged es)) < 2^64 ->
  exists w, wal_run es = Ok w /\ Inv (logged es) w.
Proof.
  intros Hfit Hb. unfold wal_run, wal_init.
  replace (open_wal []) with (Ok {| wfile := []; wid := 0; wcrc := 0 |}) by reflexivity.
  apply (run_inv_gen es _ []); auto.
  exists []. cbn. repeat split; constructor.
Qed.

Lemma records_content i ents : map rec_content (records_of i ents) = map Some (number i (map snd ents)).
Proof.
  revert i. induction ents as [|[c [n p]] ents IH]; intro i; [reflexivity|].
  cbn [records_of map number snd]. rewrite IH. reflexivity.
Qed.

Lemma number_bound i l x : In x (number i l) -> i <= fst (fst x).
Proof.
  revert i. induction l as [|[n p] l IH]; intros i H; [destruct H|].
  destruct H as [<-|H]; [cbn; lia|]. specialize (IH _ H). lia.
Qed.

Lemma after_skipn k i l : after k (number i l) = number (i + (k + 1 - i)) (skipn (N.to_nat (k + 1 - i)) l).
Proof.
  revert i. induction l as [|[n p] l IH]; intro i.
  - rewrite skipn_nil. reflexivity.
  - cbn [number]. unfold after. cbn [filter fst snd].
    destruct (N.ltb_spec k i).
    + replace (k + 1 - i) with 0 by lia. cbn [N.to_nat skipn number]. rewrite N.add_0_r. f_equal.
      change (after k (number (i + 1) l) = number (i + 1) l). rewrite IH.
      replace (k + 1 - (i + 1)) with 0 by lia. rewrite N.add_0_r. reflexivity.
    + change (after k (number (i + 1) l) = number (i + (k + 1 - i)) (skipn (N.to_nat (k + 1 - i)) ((n, p) :: l))).
      rewrite IH. replace (N.to_nat (k + 1 - i)) with (S (N.to_nat (k + 1 - (i + 1)))) by lia.
      cbn [skipn]. f_equal. lia.
Qed.

Lemma map_snd_skipn {A B} k (l : list (A * B)) : map snd (skipn k l) = skipn k (map snd l).
Proof. symmetry. apply skipn_map. Qed.

Lemma replay_lemma es k :
  forallb event_fits es = true -> N.of_nat (length (logged es)) < 2^64 -> k < 2^64 - 1 ->
  exists w rs, wal_run es = Ok w /\ load (wfile w) k = Ok rs /\
               map rec_content rs = map Some (after k (history es)).
Proof.
  intros Hfit Hb Hk. destruct (run_inv es Hfit Hb) as (w & Hrun & ents & Hf & Hm & Hok & Hid & Hc).
  assert (HL : length ents = length (logged es)) by (rewrite <- Hm, map_length; reflexivity).
  exists w, (records_of (1 + k) (skipn (N.to_nat k) ents)). split; [exact Hrun|]. split.
  - rewrite Hf. apply load_file; auto. rewrite HL; exact Hb.
  - rewrite records_content. unfold history. rewrite after_skipn, map_snd_skipn, Hm.
    replace (k + 1 - 1) with k by lia. reflexivity.
Qed.

Lemma ids_lemma es :
  forallb event_fits es = true -> N.of_nat (length (logged es)) < 2^64 ->
  exists w, wal_run es = Ok w /\ wid w = N.of_nat (length (logged es)) /\
            (exists w', open_wal (wfile w) = Ok w' /\ wid w' = wid w).
Proof.
  intros Hfit Hb. destruct (run_inv es Hfit Hb) as (w & Hrun & HI).
  exists w. split; [exact Hrun|]. split.
  - destruct HI as (? & ? & ? & ? & -> & ?). reflexivity.
  - destruct (open_inv _ _ HI Hb) as (w' & Ho & HI' & _). exists w'. split; [exact Ho|].
    destruct HI as (? & ? & ? & ? & -> & ?). destruct HI' as (? & ? & ? & ? & -> & ?). reflexivity.
Qed.

(** ** Torn files *)
Lemma read_record_prefix file pos c r :
  (pos + 2 + N.to_nat (read_size file pos) + 4 <= c)%nat ->
  (c <= length file)%nat ->
  read_record file pos = Ok r -> read_record (firstn c file) pos = Ok r.
Proof.
  intros Hc HcL H.
  assert (G : forall loc n, (loc + n <= c)%nat -> read_buffer (firstn c file) loc n = read_buffer file loc n).
  { intros loc n Hn. rewrite !read_buffer_full by (rewrite ?firstn_length; lia).
    rewrite skipn_firstn_comm, firstn_firstn. f_equal. lia. }
  assert (S : read_size (firstn c file) pos = read_size file pos).
  { unfold read_size. rewrite G by lia. reflexivity. }
  unfold read_record in *. rewrite S. rewrite G by lia. exact H.
Qed.

(** ** A record whose stored checksum is arbitrary *)
Lemma read_record_stored pre pl c4 post :
  0 < N.of_nat (length pl) < 2^16 -> length c4 = 4%nat -> unbe c4 <> crc32c pl ->
  read_record (pre ++ (append_size (N.of_nat (length pl)) ++ pl ++ c4) ++ post) (length pre) =
  Ok {| rsize := N.of_nat (length pl); rcrc := unbe c4; rbody := None |}.
Proof.
  intros [L0 L] H4 Hne.
  assert (R1 : read_size (pre ++ (append_size (N.of_nat (length pl)) ++ pl ++ c4) ++ post) (length pre) =
               N.of_nat (length pl)).
  { unfold read_size. rewrite (read_buffer_at' _ _ _ pre (append_size (N.of_nat (length pl))) ((pl ++ c4) ++ post)).
    - unfold append_size. rewrite !N_of_byte_of_N. lia.
    - rewrite <- !app_assoc. reflexivity.
    - reflexivity.
    - reflexivity. }
  unfold read_record. rewrite R1.
  replace (0 <? _) with true by (symmetry; apply N.ltb_lt; exact L0).
  rewrite (read_buffer_at' _ _ _ (pre ++ append_size (N.of_nat (length pl))) (pl ++ c4) post).
  2:{ rewrite <- !app_assoc. reflexivity. }
  2:{ rewrite app_length. reflexivity. }
  2:{ rewrite app_length, H4, Nat2N.id. reflexivity. }
  rewrite Nat2N.id. rewrite (firstn_pre pl c4 (length pl) eq_refl).
  unfold read_crc32. rewrite skipn_pre, firstn_all2 by (rewrite H4; lia).
  destruct (N.eqb_spec (unbe c4) (crc32c pl)) as [E|_]; [contradiction|]. reflexivity.
Qed.

Lemma corrupt_payload pre pl pl' post :
  0 < N.of_nat (length pl) < 2^16 -> length pl' = length pl -> burst 32 (diff pl pl') ->
  exists r, read_record (pre ++ (append_size (N.of_nat (length pl)) ++ pl' ++ append_crc32 (crc32c pl)) ++ post)
              (length pre) = Ok r /\ rec_content r = None.
Proof.
  intros L E B. rewrite <- E in *. eexists. split.
  - apply read_record_stored; [exact L|reflexivity|].
    rewrite append_crc32_be, unbe_be, N.mod_small by apply crc32c_lt.
    apply (crc_detects_burst pl pl'); auto.
  - reflexivity.
Qed.

Lemma corrupt_crc pre pl c4 post :
  0 < N.of_nat (length pl) < 2^16 -> length c4 = 4%nat -> c4 <> append_crc32 (crc32c pl) ->
  exists r, read_record (pre ++ (append_size (N.of_nat (length pl)) ++ pl ++ c4) ++ post)
              (length pre) = Ok r /\ rec_content r = None.
Proof.
  intros L H4 Hne. eexists. split.
  - apply read_record_stored; auto. intro E. apply Hne.
    rewrite append_crc32_be, <- E, <- H4. symmetry. apply be_unbe.
  - reflexivity.
Qed.

(** ** Cutting the file *)
Lemma run_cons_err e es : fold_left wal_step es (Err e) = Err e.
Proof. induction es as [|x es IH]; [reflexivity|exact IH]. Qed.

Lemma step_grows es : forall w w', fold_left wal_step es (Ok w) = Ok w' ->
  exists t, wfile w' = wfile w ++ t.
Proof.
  induction es as [|e es IH]; intros w w' H; cbn [fold_left] in H.
  - injection H as <-. exists []. rewrite app_nil_r. reflexivity.
  - destruct (wal_step (Ok w) e) as [w1|] eqn:E; [|rewrite run_cons_err in H; discriminate].
    destruct (IH _ _ H) as [t Ht]. destruct e as [n p|]; cbn [wal_step rbind] in E.
    + injection E as <-. cbn [wfile write_data] in Ht. eexists. rewrite Ht, <- app_assoc. reflexivity.
    + unfold open_wal in E. destruct (init_id _ _ _ _); [|discriminate]. injection E as <-.
      cbn [wfile] in Ht. exists t. exact Ht.
Qed.

Lemma run_app es1 es2 : wal_run (es1 ++ es2) = fold_left wal_step es2 (wal_run es1).
Proof. unfold wal_run. apply fold_left_app. Qed.

Lemma run_prefix es1 es2 w1 w2 : wal_run es1 = Ok w1 -> wal_run (es1 ++ es2) = Ok w2 ->
  firstn (length (wfile w1)) (wfile w2) = wfile w1.
Proof.
  intros H1 H2. rewrite run_app, H1 in H2. destruct (step_grows _ _ _ H2) as [t ->].
  apply firstn_pre. reflexivity.
Qed.

Lemma logged_app a b : logged (a ++ b) = logged a ++ logged b.
Proof. apply flat_map_app. Qed.

Lemma load_of_inv ops w k : Inv ops w -> N.of_nat (length ops) < 2^64 -> k < 2^64 - 1 ->
  exists rs, load (wfile w) k = Ok rs /\ map rec_content rs = map Some (after k (number 1 ops)).
Proof.
  intros (ents & Hf & Hm & Hok & Hid & Hc) Hb Hk.
  assert (HL : length ents = length ops) by (rewrite <- Hm, map_length; reflexivity).
  exists (records_of (1 + k) (skipn (N.to_nat k) ents)). split.
  - rewrite Hf. apply load_file; auto. rewrite HL; exact Hb.
  - rewrite records_content. rewrite after_skipn, map_snd_skipn, Hm.
    replace (k + 1 - 1) with k by lia. reflexivity.
Qed.

Lemma crash_at_boundary es0 es1 es2 w1 w0 k :
  forallb event_fits (es0 ++ es1) = true -> forallb event_fits es2 = true ->
  N.of_nat (length (logged (es0 ++ es1 ++ es2))) < 2^64 -> k < 2^64 - 1 ->
  wal_run es0 = Ok w0 -> wal_run (es0 ++ es1) = Ok w1 ->
  exists w rs, fold_left wal_step es2 (open_wal (firstn (length (wfile w0)) (wfile w1))) = Ok w /\
    load (wfile w) k = Ok rs /\ map rec_content rs = map Some (after k (history (es0 ++ es2))).
Proof.
  intros F01 F2 Hb Hk R0 R1. rewrite (run_prefix _ _ _ _ R0 R1).
  rewrite forallb_app in F01. apply andb_true_iff in F01 as [F0 F1].
  rewrite !logged_app, !app_length in Hb.
  destruct (run_inv es0 F0 ltac:(lia)) as (w0' & R0' & HI).
  rewrite R0 in R0'. injection R0' as <-.
  destruct (open_inv _ _ HI ltac:(lia)) as (w' & Ho & HI' & _). rewrite Ho.
  destruct (run_inv_gen es2 _ _ HI' F2) as (w & Hrun & HIw); [rewrite app_length; lia|].
  destruct (load_of_inv _ _ k HIw) as (rs & HL & HC); [rewrite app_length; lia|exact Hk|].
  exists w, rs. split; [exact Hrun|]. split; [exact HL|].
  unfold history. rewrite logged_app. exact HC.
Qed.

Lemma init_id_prefix fuel pre i ents tail id0 :
  Forall ent_ok ents -> 0 < i -> i + N.of_nat (length ents) <= 2^64 -> (length ents <= fuel)%nat ->
  exists id', init_id fuel (pre ++ file_of i ents ++ tail) (length pre) id0 =
  init_id (fuel - length ents) (pre ++ file_of i ents ++ tail) (length (pre ++ file_of i ents)) id'.
Proof.
  revert fuel pre i id0. induction ents as [|[c [n p]] ents IH]; intros fuel pre i id0 Hok Hi Hb Hf.
  - exists id0. cbn [file_of length]. rewrite app_nil_r, Nat.sub_0_r. reflexivity.
  - inversion Hok as [|? ? [Hc Hfit] Hok']; subst. cbn [fst snd length] in *. cbn [file_of].
    destruct fuel as [|fuel]; [lia|]. cbn [init_id].
    rewrite <- (app_assoc (pack _)).
    rewrite read_id_pack by (auto; lia). cbn [rbind].
    replace (0 <? i) with true by (symmetry; apply N.ltb_lt; exact Hi).
    pose proof (payload_length c i n p Hc ltac:(lia) Hfit) as [L0 L].
    rewrite read_size_pack, N.mod_small by exact L.
    rewrite next_index_pack.
    destruct (IH fuel (pre ++ pack (payload c i n p)) (i + 1) i Hok' ltac:(lia) ltac:(lia) ltac:(lia)) as [id' Hid].
    exists id'. rewrite <- !app_assoc in Hid. rewrite Hid. reflexivity.
Qed.

Lemma repeat_zero_unpack n : unpack (repeat (byte_of_N 0) (S n)) = Some (MUint 0, repeat (byte_of_N 0) n).
Proof. reflexivity. Qed.

(** A log cut just behind the length of a record cannot be opened. *)
Lemma torn_after_size es w n p :
  forallb event_fits es = true -> N.of_nat (length (logged es)) + 1 < 2^64 -> fits n p = true ->
  wal_run es = Ok w ->
  open_wal (firstn (length (wfile w) + 2) (wfile (write_data w (n, p)))) = Err UB.
Proof.
  intros F Hb Hf R. destruct (run_inv es F ltac:(lia)) as (w' & R' & ents & E & Hm & Hok & Hid & Hc).
  rewrite R in R'. injection R' as <-.
  assert (HL : length ents = length (logged es)) by (rewrite <- Hm, map_length; reflexivity).
  unfold write_data. cbn [wfile fst snd]. rewrite Hid, N.mod_small by exact Hb.
  set (pl := payload (wcrc w) (N.of_nat (length (logged es)) + 1) n p).
  assert (HP : 0 < N.of_nat (length pl) < 2^16) by (apply payload_length; auto).
  rewrite firstn_app_2. unfold pack. rewrite firstn_pre by reflexivity.
  rewrite N.mod_small by apply HP.
  unfold open_wal. set (file := wfile w ++ append_size (N.of_nat (length pl))).
  assert (Hfile : file = [] ++ file_of 1 ents ++ append_size (N.of_nat (length pl))).
  { unfold file. rewrite E. reflexivity. }
  destruct (init_id_prefix (S (length file)) [] 1 ents (append_size (N.of_nat (length pl))) 0 Hok ltac:(lia) ltac:(lia))
    as [id' Hi].
  { pose proof (file_of_length 1 ents). rewrite Hfile. cbn [app]. rewrite app_length. lia. }
  rewrite <- Hfile in Hi. cbn [length app] in Hi. rewrite Hi.
  pose proof (file_of_length 1 ents).
  assert (Hlf : length file = (length (file_of 1 ents) + 2)%nat).
  { rewrite Hfile. cbn [app]. rewrite app_length. reflexivity. }
  destruct (S (length file) - length ents)%nat as [|g] eqn:Eg; [lia|].
  cbn [init_id]. unfold read_id.
  assert (R1 : read_size file (length (file_of 1 ents)) = N.of_nat (length pl)).
  { unfold read_size.
    rewrite (read_buffer_at' _ _ _ (file_of 1 ents) (append_size (N.of_nat (length pl))) []).
    - unfold append_size. rewrite !N_of_byte_of_N. lia.
    - rewrite app_nil_r. exact Hfile.
    - reflexivity.
    - reflexivity. }
  rewrite R1. replace (0 <? _) with true by (symmetry; apply N.ltb_lt; apply HP).
  rewrite read_buffer_eof by lia.
  destruct (N.to_nat (N.of_nat (length pl))) as [|m] eqn:Em; [lia|].
  unfold unpack_wal_id. rewrite repeat_zero_unpack. reflexivity.
Qed.

(** Whatever follows the intact records, they are read back first. *)
Lemma load_loop_prefix fuel pre i ents tail rs :
  Forall ent_ok ents -> 0 < i -> i + N.of_nat (length ents) <= 2^64 ->
  load_loop fuel (pre ++ file_of i ents ++ tail) (length pre) = Ok rs ->
  firstn (length ents) rs = records_of i ents.
Proof.
  revert fuel pre i rs. induction ents as [|[c [n p]] ents IH]; intros fuel pre i rs Hok Hi Hb H.
  - reflexivity.
  - inversion Hok as [|? ? [Hc Hfit] Hok']; subst. cbn [fst snd length] in *. cbn [file_of] in H.
    destruct fuel as [|fuel]; [discriminate|]. cbn [load_loop] in H.
    rewrite <- (app_assoc (pack _)) in H.
    rewrite read_record_pack in H by (auto; lia). cbn [rbind] in H.
    pose proof (payload_length c i n p Hc ltac:(lia) Hfit) as [L0 L].
    unfold is_valid in H. cbn [rsize mk_record] in H.
    replace (0 <? _) with true in H by (symmetry; apply N.ltb_lt; exact L0).
    rewrite next_index_pack in H.
    destruct (load_loop _ _ _) as [rest|] eqn:E in H; [|discriminate]. injection H as <-.
    cbn [firstn records_of]. f_equal. rewrite app_assoc in E. eapply IH; [eassumption|lia|lia|exact E].
Qed.

Lemma torn_tail es w tail rs :
  forallb event_fits es = true -> N.of_nat (length (logged es)) < 2^64 ->
  wal_run es = Ok w -> load (wfile w ++ tail) 0 = Ok rs ->
  firstn (length (logged es)) (map rec_content rs) = map Some (history es).
Proof.
  intros F Hb R H. destruct (run_inv es F Hb) as (w' & R' & ents & E & Hm & Hok & Hid & Hc).
  rewrite R in R'. injection R' as <-.
  assert (HL : length ents = length (logged es)) by (rewrite <- Hm, map_length; reflexivity).
  destruct ents as [|[c0 [n0 p0]] ents0] eqn:EE.
  { cbn in HL. rewrite <- HL. unfold history. destruct (logged es); [reflexivity|discriminate]. }
  rewrite <- EE in *.
  assert (R0 : read_id (file_of 1 ents ++ tail) 0 = Ok 1).
  { rewrite EE in Hok. pose proof (Forall_inv Hok) as [Hc0 Hfit]. cbn [fst snd] in *.
    rewrite EE. cbn [file_of]. rewrite <- app_assoc. apply (read_id_pack []); auto; lia. }
  rewrite E in H. unfold load in H. change ((0 + 1) mod 2^64) with 1 in H.
  unfold find_start_record in H. rewrite R0 in H. cbn [rbind] in H. change (0 <? 1) with true in H.
  cbv iota in H. change (1 - 1) with 0 in H. rewrite N.min_0_l in H. cbn [N.to_nat skip_records rbind] in H.
  rewrite R0 in H. cbn [rbind] in H. change (1 =? 1) with true in H. cbv iota in H.
  apply (load_loop_prefix _ [] 1 ents tail rs Hok) in H; [|lia|lia].
  rewrite <- HL, firstn_map, H, records_content, Hm. reflexivity.
Qed.

Lemma long_record_lost :
  (forall n p, N.of_nat (length (payload 0 1 n p)) mod 2^16 = 0 ->
     exists w, wal_run [Append n p] = Ok w /\ wid w = 1 /\ load (wfile w) 0 = Ok []) /\
  (exists n p, wf n = true /\ wf p = true /\ N.of_nat (length (payload 0 1 n p)) = 65536).
Proof.
  split.
  - intros n p H. eexists. split; [reflexivity|]. split; [reflexivity|].
    cbn [wfile write_data wcrc wid fst snd app].
    change ((0 + 1) mod 2^64) with 1.
    unfold load, find_start_record, read_id.
    pose proof (read_size_pack [] (payload 0 1 n p) []) as R. cbn [app length] in R.
    rewrite app_nil_r in R. rewrite R, H. reflexivity.
  - exists (MStr (repeat (byte_of_N 97) (N.to_nat 65529))), MNil.
    split; [vm_compute; reflexivity|]. split; [reflexivity|]. vm_compute. reflexivity.
Qed.
