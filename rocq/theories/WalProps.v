(** Properties C01-C05: the write-ahead log.  Only statements; the proofs are in WalProofs.v. *)
From Verif Require Import Bytes Outcome MsgpackModel Crc32cModel Crc32cSpec WalModel WalSpec WalProofs.
Local Open Scope N_scope.

(** C01.  A record with a payload of 1..65535 bytes, stored anywhere in a file, is read back: the
    length, the payload, the checksum, and the position of whatever follows. *)
Theorem C01_record_round_trip_partial :
  forall pre pl post : list byte,
  N.of_nat (length pl) < 2^16 ->
  let file := pre ++ pack pl ++ post in
  let out := read_buffer file (length pre + 2) (N.to_nat (N.of_nat (length pl)) + 4) in
  read_size file (length pre) = N.of_nat (length pl) /\
  out = pl ++ append_crc32 (crc32c pl) /\
  read_crc32 out (N.to_nat (N.of_nat (length pl))) = crc32c pl /\
  firstn (N.to_nat (N.of_nat (length pl))) out = pl /\
  skipn (next_index (length pre) (N.of_nat (length pl))) file = post.
Proof. exact read_back. Qed.
Print Assumptions C01_record_round_trip_partial.

(** C01, at the level of operations: the record written for an operation is read back. *)
Theorem C01_operation_round_trip :
  forall pre c i n p post, c < 2^32 -> i < 2^64 -> fits n p = true ->
  exists r, read_record (pre ++ pack (payload c i n p) ++ post) (length pre) = Ok r /\
            rec_content r = Some (i, n, p).
Proof.
  exact (fun pre c i n p post Hc Hi Hf =>
           ex_intro _ _ (conj (read_record_pack pre c i n p post Hc Hi Hf) eq_refl)).
Qed.
Print Assumptions C01_operation_round_trip.

Example C01_case : fits (MMap [(MStr (str "_id"), MUint 300)]) (MArr [MNeg 4; MNil]) = true.
Proof. reflexivity. Qed.

(** C01, the other half is false: a longer record is accepted and then is not in the log at all.
    This happens whenever the payload length is a multiple of 65536, and a legal statement of that
    length exists. *)
Theorem C01_long_record_refuted :
  (forall n p, N.of_nat (length (payload 0 1 n p)) mod 2^16 = 0 ->
     exists w, wal_run [Append n p] = Ok w /\ wid w = 1 /\ load (wfile w) 0 = Ok []) /\
  (exists n p, wf n = true /\ wf p = true /\ N.of_nat (length (payload 0 1 n p)) = 65536).
Proof. exact long_record_lost. Qed.
Print Assumptions C01_long_record_refuted.

(** C02.  After any sequence of appends and clean restarts, loading from [k] returns exactly the
    operations logged with an id above [k], once each, in order, with consecutive ids from 1. *)
Theorem C02_replay_exact :
  forall es k, forallb event_fits es = true -> N.of_nat (length (logged es)) < 2^64 -> k < 2^64 - 1 ->
  exists w rs, wal_run es = Ok w /\ load (wfile w) k = Ok rs /\
               map rec_content rs = map Some (after k (history es)).
Proof. exact replay_lemma. Qed.
Print Assumptions C02_replay_exact.

Definition ex_events : list wal_event :=
  [Append (MStr (str "insert")) (MMap [(MStr (str "x"), MUint 7)]); Reopen;
   Append (MStr (str "delete")) MNil; Append (MArr [MNeg 3]) (MBool true); Reopen].

Example C02_case : forallb event_fits ex_events = true /\ length (history ex_events) = 3%nat /\
  after 1 (history ex_events) = [(2, MStr (str "delete"), MNil); (3, MArr [MNeg 3], MBool true)].
Proof. repeat split. Qed.

(** C03.  The last id equals the number of operations logged so far, also right after a restart. *)
Theorem C03_ids_grow :
  forall es, forallb event_fits es = true -> N.of_nat (length (logged es)) < 2^64 ->
  exists w, wal_run es = Ok w /\ wid w = N.of_nat (length (logged es)) /\
            (exists w', open_wal (wfile w) = Ok w' /\ wid w' = wid w).
Proof. exact ids_lemma. Qed.
Print Assumptions C03_ids_grow.

(** C04, part that holds: a crash that leaves the file as it was after some earlier operation loses
    only the later operations, and the log works as if they had never been logged. *)
Theorem C04_crash_between_records_partial :
  forall es0 es1 es2 w1 w0 k,
  forallb event_fits (es0 ++ es1) = true -> forallb event_fits es2 = true ->
  N.of_nat (length (logged (es0 ++ es1 ++ es2))) < 2^64 -> k < 2^64 - 1 ->
  wal_run es0 = Ok w0 -> wal_run (es0 ++ es1) = Ok w1 ->
  exists w rs, fold_left wal_step es2 (open_wal (firstn (length (wfile w0)) (wfile w1))) = Ok w /\
    load (wfile w) k = Ok rs /\ map rec_content rs = map Some (after k (history (es0 ++ es2))).
Proof. exact crash_at_boundary. Qed.
Print Assumptions C04_crash_between_records_partial.

(** C04, part that holds: whatever bytes follow the complete records, if loading succeeds it returns
    all complete records first. *)
Theorem C04_torn_tail_partial :
  forall es w tail rs,
  forallb event_fits es = true -> N.of_nat (length (logged es)) < 2^64 ->
  wal_run es = Ok w -> load (wfile w ++ tail) 0 = Ok rs ->
  firstn (length (logged es)) (map rec_content rs) = map Some (history es).
Proof. exact torn_tail. Qed.
Print Assumptions C04_torn_tail_partial.

(** C04 is false in general: for EVERY log and every next operation, a crash that leaves just the two
    length bytes of the next record makes the log impossible to open (undefined behaviour: element
    access on a MessagePack value that is not an array). *)
Theorem C04_torn_after_length_refuted :
  forall es w n p,
  forallb event_fits es = true -> N.of_nat (length (logged es)) + 1 < 2^64 -> fits n p = true ->
  wal_run es = Ok w ->
  open_wal (firstn (length (wfile w) + 2) (wfile (write_data w (n, p)))) = Err UB.
Proof. exact torn_after_size. Qed.
Print Assumptions C04_torn_after_length_refuted.

(** C04, second violation: one byte of a torn record survives; the log opens, an operation is logged
    and acknowledged with id 2, and the next restart does not recover it. *)
Theorem C04_append_after_torn_byte_refuted :
  exists w1 w2 rs, wal_run [Append (MUint 1) MNil; Append (MUint 2) MNil] = Ok w1 /\
    fold_left wal_step [Append (MUint 3) MNil]
      (open_wal (firstn (length (pack (payload 0 1 (MUint 1) MNil)) + 1) (wfile w1))) = Ok w2 /\
    wid w2 = 2 /\ load (wfile w2) 0 = Ok rs /\
    map rec_content rs = [Some (1, MUint 1, MNil)].
Proof.
  do 3 eexists. split; [vm_compute; reflexivity|]. split; [vm_compute; reflexivity|].
  split; [reflexivity|]. split; vm_compute; reflexivity.
Qed.
Print Assumptions C04_append_after_torn_byte_refuted.

(** C05.  A stored payload damaged by a burst of at most 32 bits is not accepted: the record comes
    back without content. *)
Theorem C05_payload_burst_detected :
  forall pre pl pl' post,
  0 < N.of_nat (length pl) < 2^16 -> length pl' = length pl -> burst 32 (diff pl pl') ->
  exists r, read_record (pre ++ (append_size (N.of_nat (length pl)) ++ pl' ++ append_crc32 (crc32c pl)) ++ post)
              (length pre) = Ok r /\ rec_content r = None.
Proof. exact corrupt_payload. Qed.
Print Assumptions C05_payload_burst_detected.

(** the same for any damage of the stored checksum *)
Theorem C05_checksum_damage_detected :
  forall pre pl c4 post,
  0 < N.of_nat (length pl) < 2^16 -> length c4 = 4%nat -> c4 <> append_crc32 (crc32c pl) ->
  exists r, read_record (pre ++ (append_size (N.of_nat (length pl)) ++ pl ++ c4) ++ post)
              (length pre) = Ok r /\ rec_content r = None.
Proof. exact corrupt_crc. Qed.
Print Assumptions C05_checksum_damage_detected.

Example C05_case : burst 32 (diff (str "hello world") (str "hexxo world")) /\
  pack (str "hello world") =
  append_size (N.of_nat (length (str "hello world"))) ++ str "hello world" ++ append_crc32 (crc32c (str "hello world")).
Proof.
  split; [|reflexivity].
  exists 18%nat, (firstn 11 (skipn 18 (diff (str "hello world") (str "hexxo world")))), 59%nat.
  vm_compute. repeat split; auto 20; lia.
Qed.
