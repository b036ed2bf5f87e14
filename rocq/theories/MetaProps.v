(** Properties C06, C07, C08, C51: catalogue file and recovery point. *)
From Verif Require Import Bytes Outcome ByteOrd OMap MetaModel MetaSpec MetaProofs.
From Coq Require Import Permutation.

(** C06.  For every sequence of catalogue calls and every order in which the hash map is iterated
    when the file is written, reading the file gives the same catalogue exactly when no database
    name contains ':' and no collection name contains ';' or a line feed. *)
Theorem C06_catalogue_round_trip_partial :
  forall ops l, Permutation l (meta_run ops) ->
  open_meta (render l) = Ok (meta_run ops) <-> names_ok (meta_run ops) = true.
Proof. exact meta_round_trip_iff. Qed.
Print Assumptions C06_catalogue_round_trip_partial.

Definition ex_ops : list meta_op :=
  [CreateDb (str "shop"); CreateColl (str "shop") (str "orders"); CreateColl (str "shop") (str "items:v2");
   CreateDb (str "logs"); CreateColl (str "logs") (str "jan")].
Example C06_case : names_ok (meta_run ex_ops) = true /\ length (meta_run ex_ops) = 2%nat.
Proof. split; reflexivity. Qed.

(** The unrestricted statement is false: a collection named "a;b" comes back as two collections. *)
Theorem C06_separator_in_name_refuted :
  exists ops, open_meta (render (meta_run ops)) = Ok [(str "d", [str "a"; str "b"])] /\
              meta_run ops = [(str "d", [str "a;b"])].
Proof. exists [CreateDb (str "d"); CreateColl (str "d") (str "a;b")]. split; reflexivity. Qed.
Print Assumptions C06_separator_in_name_refuted.

(** C07.  After any calls the catalogue lists exactly, and once each, what was created and not
    dropped; the next call reports success exactly when it changes something. *)
Theorem C07_catalogue_is_map_of_sets_partial :
  forall ops o,
  lists (meta_run ops) (cat_run ops) /\
  snd (meta_step (meta_run ops) o) = snd (cat_step (cat_run ops) o).
Proof. exact meta_refines. Qed.
Print Assumptions C07_catalogue_is_map_of_sets_partial.

Example C07_case :
  let s := cat_run (ex_ops ++ [DropDb (str "shop"); CreateDb (str "shop")]) in
  has_db s (str "shop") = true /\ has_coll s (str "shop") (str "orders") = false /\
  has_coll s (str "logs") (str "jan") = true.
Proof. repeat split. Qed.

(** What is missing for C07: the storage layer drops a database by walking over the very list of
    collections it is shrinking; with two or more collections it reads past the end of the list. *)
Theorem C07_drop_database_refuted :
  (forall m db, (2 <= length (collections m db))%nat -> disk_drop_db m db = Err UB) /\
  exists ops, (2 <= length (collections (meta_run ops) (str "shop")))%nat.
Proof.
  split.
  - intros m db H. unfold disk_drop_db. destruct (collections m db) as [|a [|b l]]; cbn in H; try lia. reflexivity.
  - exists ex_ops. vm_compute. lia.
Qed.
Print Assumptions C07_drop_database_refuted.

(** With at most one collection dropping through the storage layer does what C07 says. *)
Theorem C07_drop_database_small_partial :
  forall ops db, (length (collections (meta_run ops) db) <= 1)%nat ->
  exists m', disk_drop_db (meta_run ops) db = Ok (m', has_db (cat_run ops) db) /\
             lists m' (cat_run (ops ++ [DropDb db])).
Proof. exact disk_drop_small. Qed.
Print Assumptions C07_drop_database_small_partial.

(** C08.  Whatever was stored before, after recording [n] a restart reads [n]. *)
Theorem C08_recovery_point_round_trip :
  forall ids n c0, (n < 2^64)%N ->
  fst (read_wal_id (open_wid (wcontent (fold_left fix_wal_id (ids ++ [n]) (open_wid c0))))) = n.
Proof. exact fixes_read. Qed.
Print Assumptions C08_recovery_point_round_trip.

(** A crash between writing the digits and cutting the file is harmless when ids grow. *)
Theorem C08_crash_before_truncate :
  forall old new, (old <= new)%N -> (new < 2^64)%N ->
  fst (read_wal_id (open_wid (write_at0 (to_string old) (to_string new)))) = new.
Proof. exact crash_before_truncate. Qed.
Print Assumptions C08_crash_before_truncate.

(** Reading twice through one handle does not give the stored value: the second read starts where the
    first one ended. *)
Theorem C08_second_read_refuted :
  exists f, let f1 := fix_wal_id f 15 in
            fst (read_wal_id f1) = 15%N /\ fst (read_wal_id (snd (read_wal_id f1))) = 0%N.
Proof. exists (open_wid (str "7")). split; reflexivity. Qed.
Print Assumptions C08_second_read_refuted.

(** C51.  Rewriting the catalogue file is one write at the start followed by a truncation.  If the new
    text is not shorter, a crash in between leaves the new catalogue. *)
Theorem C51_rewrite_longer_partial :
  forall ops l old, Permutation l (meta_run ops) -> names_ok (meta_run ops) = true ->
  (length old <= length (render l))%nat ->
  open_meta (write_at0 old (render l)) = Ok (meta_run ops).
Proof. exact rewrite_longer. Qed.
Print Assumptions C51_rewrite_longer_partial.

(** Otherwise the restart may see a catalogue that never existed: here a collection is dropped and a
    database with an empty name appears. *)
Theorem C51_rewrite_shorter_refuted :
  exists ops o, let old := meta_run ops in let new := meta_run (ops ++ [o]) in
  names_ok old = true /\ names_ok new = true /\
  exists m, open_meta (write_at0 (render old) (render new)) = Ok m /\ m <> old /\ m <> new /\
            is_exists_database m [] = true /\ is_exists_database old [] = false.
Proof.
  exists [CreateDb (str "a"); CreateColl (str "a") (str "xyz"); CreateDb (str "b"); CreateColl (str "b") (str "y")],
         (DropColl (str "a") (str "xyz")).
  cbv zeta. split; [reflexivity|]. split; [reflexivity|]. eexists. split; [vm_compute; reflexivity|].
  split; [vm_compute; discriminate|]. split; [vm_compute; discriminate|]. split; reflexivity.
Qed.
Print Assumptions C51_rewrite_shorter_refuted.
