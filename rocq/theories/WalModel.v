(** Model of the write-ahead log: services/wal/dto.cpp, services/wal/wal.cpp,
    services/wal/base.hpp and the positioned read of core/file/local_file_system.cpp. *)
From Verif Require Import Bytes Outcome MsgpackModel Crc32cModel.
Local Open Scope N_scope.

(** dto.cpp:22-25 [append_size]; the argument is a [size_tt] = uint16. *)
Definition append_size (size : N) : list byte := [byte_of_N (size / 256); byte_of_N size].

(** dto.cpp:15-20 [append_crc32]. *)
Definition append_crc32 (c : N) : list byte :=
  [byte_of_N (c / 2^24); byte_of_N (c / 2^16); byte_of_N (c / 2^8); byte_of_N c].

(** dto.cpp:53-59 [pack(storage, input, data_size)]: [size_tt(data_size)] truncates modulo 2^16. *)
Definition pack (payload : list byte) : list byte :=
  append_size (N.of_nat (length payload) mod 2^16) ++ payload ++ append_crc32 (crc32c payload).

(** core/file/local_file_system.cpp:392-404 [read(..., location)]: the loop calls pread again at the
    SAME location after a short read, so the tail of the file is repeated into the buffer.
    [n] bytes wanted; returns the bytes stored in the buffer.  pread is assumed to return all bytes
    available up to the end of file. *)
Fixpoint pread_loop (fuel : nat) (file : list byte) (loc n : nat) : list byte :=
  match fuel with
  | O => []
  | S f =>
    match n with
    | O => []
    | _ => match firstn n (skipn loc file) with
           | [] => []
           | chunk => chunk ++ pread_loop f file loc (n - length chunk)
           end
    end
  end.

(** wal.cpp:155-158 [read_buffer]: the buffer is resized (zero filled), then read; the result of the
    read is ignored. *)
Definition read_buffer (file : list byte) (loc n : nat) : list byte :=
  let b := pread_loop n file loc n in b ++ repeat (byte_of_N 0) (n - length b).

(** wal.cpp:169-182 [read_size_impl], [read_size]. *)
Definition read_size (file : list byte) (pos : nat) : N :=
  match read_buffer file pos 2 with
  | [a; b] => N_of_byte a * 256 + N_of_byte b
  | _ => 0
  end.

(** dto.cpp:32-39 [read_crc32]: the four bytes at [index_start]. *)
Definition read_crc32 (b : list byte) (i : nat) : N := unbe (firstn 4 (skipn i b)).

(** wal.cpp:32 [next_index]. *)
Definition next_index (pos : nat) (size : N) : nat := (pos + N.to_nat size + 2 + 4)%nat.

(** dto.cpp:92-97 [unpack_wal_id].  Reading element 1 of something that is not an array of at least
    two elements is undefined; [as<id_t>] throws unless the element is a non-negative integer. *)
Definition unpack_wal_id (l : list byte) : res N :=
  match unpack l with
  | None => Err Throw
  | Some (MArr (_ :: MUint n :: _), _) => Ok n
  | Some (MArr (_ :: _ :: _), _) => Err Throw
  | Some (_, _) => Err UB
  end.

(** wal.cpp:380-389 [read_id]. *)
Definition read_id (file : list byte) (pos : nat) : res N :=
  let size := read_size file pos in
  if 0 <? size then unpack_wal_id (read_buffer file (pos + 2) (N.to_nat size)) else Ok 0.

(** wal.cpp:353-361 [init_id]; [id] is the current value of the member. *)
Fixpoint init_id (fuel : nat) (file : list byte) (pos : nat) (id : N) : res N :=
  match fuel with
  | O => Err Diverge
  | S f =>
    do n <- read_id file pos;
    if 0 <? n then init_id f file (next_index pos (read_size file pos)) n else Ok id
  end.

(** services/wal/record.hpp [record_t]; [rbody = None] is the case data = nullptr. *)
Record record_t := { rsize : N; rcrc : N; rbody : option (N * N * mp * mp) }.
Definition is_valid (r : record_t) : bool := 0 <? rsize r.

(** wal.cpp:391-418 [read_record].  The MessagePack tree of the node and of the parameters is
    returned as such; turning it into plan objects is the subject of the plan serialization model. *)
Definition read_record (file : list byte) (pos : nat) : res record_t :=
  let size := read_size file pos in
  if 0 <? size then
    let out := read_buffer file (pos + 2) (N.to_nat size + 4) in
    let crc := read_crc32 out (N.to_nat size) in
    if crc =? crc32c (firstn (N.to_nat size) out) then
      match unpack out with
      | None => Err Throw
      | Some (MArr (MUint c :: MUint i :: n :: p :: _), _) =>
        Ok {| rsize := size; rcrc := crc; rbody := Some (c mod 2^32, i, n, p) |}
      | Some _ => Err UB
      end
    else Ok {| rsize := size; rcrc := crc; rbody := None |}
  else Ok {| rsize := 0; rcrc := 0; rbody := None |}.

(** wal.cpp:367-374, the loop of [find_start_record]: [steps] = wal_id - first_id iterations. *)
Fixpoint skip_records (steps : nat) (file : list byte) (pos : nat) : option nat :=
  match steps with
  | O => Some pos
  | S k => let size := read_size file pos in
           if 0 <? size then skip_records k file (next_index pos size) else None
  end.

(** wal.cpp:363-378 [find_start_record]. The number of loop iterations is cut at the file length + 1,
    where the loop has necessarily met the end of the file. *)
Definition find_start_record (file : list byte) (wal_id : N) : res (option nat) :=
  do first <- read_id file 0;
  if 0 <? first then
    let steps := N.min (wal_id - first) (N.of_nat (length file) + 1) in
    match skip_records (N.to_nat steps) file 0 with
    | None => Ok None
    | Some pos => do id <- read_id file pos;
                  Ok (if wal_id =? id then Some pos else None)
    end
  else Ok None.

(** wal.cpp:198-202: the do/while of [load]; the last, invalid record is dropped. *)
Fixpoint load_loop (fuel : nat) (file : list byte) (pos : nat) : res (list record_t) :=
  match fuel with
  | O => Err Diverge
  | S f =>
    do r <- read_record file pos;
    if is_valid r then
      do rest <- load_loop f file (next_index pos (rsize r));
      Ok (r :: rest)
    else Ok []
  end.

(** wal.cpp:191-205 [load]. *)
Definition load (file : list byte) (wal_id : N) : res (list record_t) :=
  let wal_id := (wal_id + 1) mod 2^64 in
  do st <- find_start_record file wal_id;
  match st with
  | None => Ok []
  | Some pos => load_loop (S (length file)) file pos
  end.

(** wal.hpp:105-106: members of the actor. *)
Record wal := { wfile : list byte; wid : N; wcrc : N }.

(** wal.cpp:78-86 constructor: opens (or creates) the file, seeks to its end, [init_id]. *)
Definition open_wal (file : list byte) : res wal :=
  do id <- init_id (S (length file)) file 0 0;
  Ok {| wfile := file; wid := id; wcrc := 0 |}.

(** dto.cpp:61-76: the payload of a record. *)
Definition payload (crc id : N) (node params : mp) : list byte :=
  enc (MArr [MUint crc; MUint id; node; params]).

(** wal.cpp:345-351 [write_data_]. *)
Definition write_data (w : wal) (np : mp * mp) : wal :=
  let id := (wid w + 1) mod 2^64 in
  let pl := payload (wcrc w) id (fst np) (snd np) in
  {| wfile := wfile w ++ pack pl; wid := id; wcrc := crc32c pl |}.

(** One step of a log's life: an operation is logged, or the process restarts cleanly. *)
Inductive wal_event := Append (node params : mp) | Reopen.

Definition wal_step (w : res wal) (e : wal_event) : res wal :=
  do s <- w;
  match e with
  | Append n p => Ok (write_data s (n, p))
  | Reopen => open_wal (wfile s)
  end.

Definition wal_init : res wal := open_wal [].
Definition wal_run (es : list wal_event) : res wal := fold_left wal_step es wal_init.
