From Verif Require Import Bytes Outcome ByteOrd MsgpackModel MsgpackProofs TapeModel TapeSpec DocPackModel DocPackSpec StmtModel StmtSpec StmtProofs StmtProofs2 StmtProofs3 IxMetaModel IxMetaSpec.
From Coq Require Import Lia ZifyBool ZifyN ZifyNat.
Local Open Scope N_scope.

(** * Records *)
Definition cnode (d : def) : node content := NCreateIndex (dtype d) (dcoll d) (dname d) (dkeys d).

Lemma short_small s : short s = true -> small s = true. Proof. unfold short, small. lia. Qed.
Lemma def_node_ok d : IxMetaSpec.def_ok d = true -> node_ok (cnode d) = true.
Proof.
  unfold IxMetaSpec.def_ok, cnode. rewrite !andb_true_iff. intros (((((((T & U) & S) & A) & B) & N) & L) & K). cbn [node_ok]. unfold coll_ok.
  rewrite !andb_true_iff. repeat split; try assumption; try (apply short_small; assumption).
  - unfold small. lia.
  - rewrite forallb_forall in *. intros k Hk. specialize (K k Hk). destruct k; try discriminate K. cbn. apply short_small, K.
Qed.
Lemma def_kept d : IxMetaSpec.def_ok d = true -> back (cnode d) = cnode d.
Proof.
  unfold IxMetaSpec.def_ok, cnode. rewrite !andb_true_iff. intros (((((((T & U) & S) & A) & B) & N) & L) & K). cbn [back]. f_equal.
  - destruct (dcoll d) as [u db sc cl]. cbn in *. unfold back_coll. cbn. destruct u; try discriminate U. destruct sc; try discriminate S. reflexivity.
  - rewrite forallb_forall in K. rewrite <- (map_id (dkeys d)) at 2. apply map_ext_in. intros k Hk. specialize (K k Hk). destruct k; try discriminate K. reflexivity.
Qed.

Definition body (d : def) : list byte := enc (MArr [node_mp (cnode d)]).
Lemma buffer_body d : IxMetaSpec.def_ok d = true -> buffer d = Ok (body d).
Proof.
  intros O. unfold buffer, body. rewrite (ser_node_mp _ (cnode d) (node_of d) eq_refl (def_node_ok d O) eq_refl). cbn [rbind].
  rewrite enc_arr. cbn [length flat_map]. rewrite app_nil_r. reflexivity.
Qed.
Lemma read_body d : IxMetaSpec.def_ok d = true -> read_buffer (body d) = Ok d.
Proof.
  intros O. unfold read_buffer, body. rewrite <- (app_nil_r (enc _)). rewrite unpack_enc.
  - cbn [via_array rbind item nth_error]. unfold read_node.
    destruct (get_node_mp (fun n => n) true (cnode d) (node_of d) eq_refl (def_node_ok d O) eq_refl (Datatypes.S (mdepth (node_mp (cnode d)))) ltac:(lia)) as (n' & G & B).
    rewrite G. cbn [rbind]. rewrite (def_kept d O) in B. unfold cnode in B. destruct n'; cbn [shows plain] in B; try discriminate B; try (exfalso; exact B).
    injection B as -> -> -> ->. destruct d. reflexivity.
  - cbn [wf forallb]. rewrite (node_wf (cnode d) (node_of d) eq_refl (def_node_ok d O)). reflexivity.
Qed.

Lemma enc_str_len s : (length (enc (MStr s)) <= 5 + length s)%nat.
Proof.
  cbn [enc]. rewrite app_length. enough (length (enc_str_head (N.of_nat (length s))) <= 5)%nat by lia. unfold enc_str_head.
  repeat match goal with |- context [if ?b then _ else _] => destruct b end; cbn [length]; rewrite ?be_length; lia.
Qed.
Lemma enc_uint_len n : (length (enc_uint n) <= 9)%nat.
Proof. unfold enc_uint. repeat match goal with |- context [if ?b then _ else _] => destruct b end; cbn [length]; rewrite ?be_length; lia. Qed.
Lemma arr_len n : (length (arr n) <= 5)%nat.
Proof. unfold arr, enc_arr_head. repeat match goal with |- context [if ?b then _ else _] => destruct b end; cbn [length]; rewrite ?be_length; lia. Qed.
Lemma keys_len ks : forallb (fun k => match k with KStr s => short s | _ => false end) ks = true ->
  N.of_nat (length (flat_map enc (map key_mp ks))) <= N.of_nat (length ks) * (2 ^ 32 + 5).
Proof.
  induction ks as [|k ks IH]; [cbn; lia|]. cbn [forallb map flat_map length]. rewrite andb_true_iff. intros [K R]. specialize (IH R). rewrite app_length.
  destruct k; try discriminate K. cbn [key_mp]. pose proof (enc_str_len s). unfold short in K. lia.
Qed.
Lemma body_len d : IxMetaSpec.def_ok d = true -> N.of_nat (length (body d)) < 2 ^ 64.
Proof.
  unfold IxMetaSpec.def_ok. rewrite !andb_true_iff. intros (((((((T & U) & S) & A) & B) & N) & L) & K). unfold body, cnode. cbn [node_mp].
  rewrite enc_arr. cbn [flat_map]. rewrite app_nil_r, enc5, enc_arr. unfold coll_mp. rewrite enc2. rewrite !app_length.
  pose proof (keys_len _ K). pose proof (arr_len (length [node_mp (cnode d)])). pose proof (arr_len 5). pose proof (arr_len 2). pose proof (arr_len (length (map key_mp (dkeys d)))).
  pose proof (enc_str_len (database (dcoll d))). pose proof (enc_str_len (collection (dcoll d))). pose proof (enc_str_len (dname d)).
  change (enc (MUint T_create_index)) with (enc_uint T_create_index). change (enc (MUint (dtype d))) with (enc_uint (dtype d)).
  pose proof (enc_uint_len T_create_index). pose proof (enc_uint_len (dtype d)). unfold short in *. cbn [length] in *. lia.
Qed.

(** * The file *)
Definition rec (d : def) : list byte := size_bytes (N.of_nat (length (body d))) ++ body d.
Definition recs (l : list def) : list byte := flat_map rec l.
Notation oks := (Forall (fun d => IxMetaSpec.def_ok d = true)).

Lemma recs_app a b : recs (a ++ b) = recs a ++ recs b. Proof. unfold recs. apply flat_map_app. Qed.
Lemma write_rec f d : IxMetaSpec.def_ok d = true -> write_index f d = Ok (f ++ rec d).
Proof. intros O. unfold write_index. rewrite (buffer_body d O). cbn [rbind]. unfold rec. rewrite app_assoc. reflexivity. Qed.
Lemma write_all_recs l : forall f, oks l -> write_all f l = Ok (f ++ recs l).
Proof.
  induction l as [|d l IH]; intros f O; cbn [write_all recs flat_map]; [rewrite app_nil_r; reflexivity|].
  inversion O as [|? ? Od Ol]; subst. rewrite (write_rec f d Od). cbn [rbind]. rewrite IH by assumption. unfold recs. rewrite app_assoc. reflexivity.
Qed.
Lemma size_back n : n < 2 ^ 64 -> size_of_bytes (size_bytes n) = n.
Proof. intros H. unfold size_of_bytes, size_bytes. rewrite rev_involutive, unbe_be. change (256 ^ N.of_nat 8) with (2 ^ 64). apply N.mod_small, H. Qed.
Lemma size_len n : length (size_bytes n) = 8%nat. Proof. unfold size_bytes. rewrite rev_length. apply be_length. Qed.
Lemma fill_app a r : fill (length a) (a ++ r) = a.
Proof. unfold fill. rewrite firstn_app, firstn_all, Nat.sub_diag. cbn [firstn]. rewrite app_nil_r, app_length. replace (length a - (length a + length r))%nat with 0%nat by lia. cbn [repeat]. apply app_nil_r. Qed.
Lemma read_indexes_recs l : oks l -> forall f, (length l < f)%nat -> read_indexes f (recs l) = Ok l.
Proof.
  induction l as [|d l IH]; intros O f Hf; destruct f as [|f]; try (cbn [length] in Hf; lia).
  - reflexivity.
  - inversion O as [|? ? Od Ol]; subst. cbn [read_indexes recs flat_map]. unfold rec at 1. rewrite <- !app_assoc.
    rewrite (take_app' 8) by (rewrite size_len; reflexivity). rewrite size_back by (apply body_len; assumption). rewrite Nat2N.id.
    rewrite fill_app, (read_body d Od). cbn [rbind]. rewrite skipn_app, skipn_all, Nat.sub_diag. cbn [skipn app].
    fold (recs l). rewrite IH; [reflexivity|assumption|cbn [length] in Hf; lia].
Qed.
Lemma recs_len l : (length l <= length (recs l))%nat.
Proof. induction l as [|d l IH]; cbn [recs flat_map length]; [lia|]. rewrite app_length. unfold rec at 1. rewrite app_length, size_len. fold (recs l). lia. Qed.
Lemma read_file_recs l : oks l -> read_file (recs l) = Ok l.
Proof. intros O. unfold read_file. apply read_indexes_recs; [assumption|]. pose proof (recs_len l). lia. Qed.
Lemma oks_filter f l : oks l -> oks (filter f l).
Proof. intros H. apply Forall_forall. intros x Hx. apply filter_In in Hx as [Hx _]. rewrite Forall_forall in H. exact (H x Hx). Qed.
Lemma remove_index_recs l n : oks l -> remove_index (recs l) n = Ok (recs (filter (fun d => negb (named n d)) l)).
Proof. intros O. unfold remove_index. rewrite read_file_recs by assumption. cbn [rbind]. rewrite write_all_recs by (apply oks_filter; assumption). reflexivity. Qed.
