(** Model of the catalogue file: services/disk/metadata.cpp, and of the recovery point file:
    services/disk/disk.cpp:135-143, services/wal/base.hpp:16-21. *)
From Verif Require Import Bytes Outcome ByteOrd OMap.

Notation name := (list byte) (only parsing).

(** metadata.hpp:17 [data_t]: unordered_map database -> vector of collections.  Modelled by the map
    with sorted keys; wherever the iteration order matters (flush_) the order is a parameter. *)
Notation meta := (list (name * list name)) (only parsing).

(** metadata.cpp:11-18 [databases] *)
Definition databases (m : meta) : list name := map fst m.
(** metadata.cpp:20-27 [collections] *)
Definition collections (m : meta) (db : name) : list name :=
  match mfind bcmp db m with Some l => l | None => [] end.
(** metadata.cpp:29-31 *)
Definition is_exists_database (m : meta) (db : name) : bool := mmem bcmp db m.
(** metadata.cpp:51-57 *)
Definition is_exists_collection (m : meta) (db c : name) : bool :=
  match mfind bcmp db m with Some l => existsb (beqb c) l | None => false end.
(** metadata.cpp:33-42; the flush is separate, see [render] *)
Definition append_database (m : meta) (db : name) : meta * bool :=
  if is_exists_database m db then (m, false) else (minsert bcmp db [] m, true).
(** metadata.cpp:44-50 *)
Definition remove_database (m : meta) (db : name) : meta * bool :=
  (merase bcmp db m, is_exists_database m db).
(** metadata.cpp:59-72 *)
Definition append_collection (m : meta) (db c : name) : meta * bool :=
  if is_exists_collection m db c then (m, false)
  else match mfind bcmp db m with
       | Some l => (minsert bcmp db (l ++ [c]) m, true)
       | None => (m, false)
       end.
(** metadata.cpp:74-88, std::remove + erase *)
Definition remove_collection (m : meta) (db c : name) : meta * bool :=
  match mfind bcmp db m with
  | Some l => let l' := filter (fun x => negb (beqb c x)) l in
              if (length l' <? length l)%nat then (minsert bcmp db l' m, true) else (m, false)
  | None => (m, false)
  end.

(** metadata.cpp:122-133 [flush_], with the entries in iteration order [l].  The file is overwritten
    from 0 and truncated to the new length, so its content is the rendered text. *)
Definition COLON := byte_of_N 58.
Definition SEMI := byte_of_N 59.
Definition NL := byte_of_N 10.
Definition render_entry (e : name * list name) : list byte :=
  fst e ++ [COLON] ++ flat_map (fun c => c ++ [SEMI]) (snd e) ++ [NL].
Definition render (l : list (name * list name)) : list byte := flat_map render_entry l.

(** std::string::find(c, pos) *)
Fixpoint index_of (c : byte) (s : list byte) : option nat :=
  match s with
  | [] => None
  | x :: r => if match bytecmp c x with Eq => true | _ => false end then Some O
              else match index_of c r with Some i => Some (S i) | None => None end
  end.
Definition find_from (c : byte) (s : list byte) (pos : nat) : option nat :=
  match index_of c (skipn pos s) with Some i => Some (pos + i)%nat | None => None end.
Definition substr (s : list byte) (pos n : nat) : list byte := firstn n (skipn pos s).

(** metadata.cpp:106-110, the loop over the collections of one line; [pos_end] = None is npos *)
Fixpoint parse_cols (fuel : nat) (data : list byte) (db : name) (pos_end : option nat)
         (pos : nat) (m : meta) : res meta :=
  match fuel with
  | O => Err Diverge
  | S f =>
    match find_from SEMI data pos with
    | None => Ok m
    | Some pc => if (match pos_end with Some e => pc <? e | None => true end)%nat
                 then parse_cols f data db pos_end (pc + 1)
                                 (fst (append_collection m db (substr data pos (pc - pos))))
                 else Ok m
    end
  end.

(** metadata.cpp:98-119, the loop over the lines *)
Fixpoint parse_lines (fuel : nat) (data : list byte) (pos_nl : nat) (m : meta) : res meta :=
  match fuel with
  | O => Err Diverge
  | S f =>
    match find_from COLON data pos_nl with
    | None => Ok m
    | Some pd =>
      let db := substr data pos_nl (pd - pos_nl) in
      let m1 := fst (append_database m db) in
      let pos := (pd + 1)%nat in
      let pos_end := find_from NL data pos in
      do m2 <- parse_cols (S (length data)) data db pos_end pos m1;
      match pos_end with
      | Some e => parse_lines f data (e + 1) m2
      | None => Ok m2
      end
    end
  end.

(** metadata.cpp:90-120 constructor: read the whole file, parse *)
Definition open_meta (file : list byte) : res meta := parse_lines (S (length file)) file 0 [].

(** Catalogue calls (disk.hpp / metadata.hpp) *)
Inductive meta_op :=
| CreateDb (db : name) | DropDb (db : name) | CreateColl (db c : name) | DropColl (db c : name).

Definition meta_step (m : meta) (o : meta_op) : meta * bool :=
  match o with
  | CreateDb db => append_database m db
  | DropDb db => remove_database m db
  | CreateColl db c => append_collection m db c
  | DropColl db c => remove_collection m db c
  end.

Definition meta_run (ops : list meta_op) : meta := fold_left (fun m o => fst (meta_step m o)) ops [].

(** disk.cpp:110-115 [disk_t::remove_database]: a range-for over the vector that
    [remove_collection] shrinks.  With zero collections the loop is empty; with one the iterator
    meets the saved end; with two or more the loop dereferences an element past the new end
    (the i-th iteration sees position i of a vector of length n-i-1, and the saved end is position n). *)
Definition disk_drop_db (m : meta) (db : name) : res (meta * bool) :=
  match collections m db with
  | [] => Ok (remove_database m db)
  | [c] => Ok (remove_database (fst (remove_collection m db c)) db)
  | _ => Err UB
  end.

(** ** Recovery point file *)
(** disk.hpp: the handle of WAL_ID: content and seek position *)
Record wid_file := { wcontent : list byte; wpos : nat }.

(** std::to_string(uint64) *)
Definition digit (n : N) : byte := byte_of_N (48 + n mod 10).
Fixpoint dec_digits (fuel : nat) (n : N) (acc : list byte) : list byte :=
  match fuel with
  | O => acc
  | S f => let acc := digit n :: acc in if (n <? 10)%N then acc else dec_digits f (n / 10) acc
  end.
Definition to_string (n : N) : list byte := dec_digits (S (N.to_nat (N.size n))) n [].

(** disk.cpp:137-141 [fix_wal_id]: pwrite at 0 (does not move the seek position), truncate *)
Definition write_at0 (old new : list byte) : list byte := new ++ skipn (length new) old.
Definition fix_wal_id (f : wid_file) (id : N) : wid_file :=
  let s := to_string id in
  {| wcontent := firstn (length s) (write_at0 (wcontent f) s); wpos := wpos f |}.

(** file_handle.cpp:68-80 [read_line] from the seek position: '\r' skipped, stops at '\n' or EOF.
    Returns the line and the number of bytes consumed. *)
Fixpoint read_line (s : list byte) : list byte * nat :=
  match s with
  | [] => ([], O)
  | b :: r => if (N_of_byte b =? 10)%N then ([], 1%nat)
              else let (l, k) := read_line r in
                   (if (N_of_byte b =? 13)%N then l else b :: l, S k)
  end.

(** strtoull(s, nullptr, 10): white space, optional sign, digits, saturation at 2^64-1; a minus sign
    negates modulo 2^64. *)
Definition is_space (b : byte) : bool := ((N_of_byte b =? 32) || ((9 <=? N_of_byte b) && (N_of_byte b <=? 13)))%N.
Fixpoint skip_space (s : list byte) : list byte :=
  match s with b :: r => if is_space b then skip_space r else s | [] => [] end.
Fixpoint digits_val (s : list byte) (acc : N) : N :=
  match s with
  | b :: r => if ((48 <=? N_of_byte b) && (N_of_byte b <=? 57))%N
              then digits_val r (acc * 10 + (N_of_byte b - 48)) else acc
  | [] => acc
  end.
Definition strtoull (s : list byte) : N :=
  let s := skip_space s in
  let '(neg, s) := match s with
                   | b :: r => if (N_of_byte b =? 43)%N then (false, r)
                               else if (N_of_byte b =? 45)%N then (true, r) else (false, s)
                   | [] => (false, s)
                   end in
  let v := digits_val s 0 in
  if (v <? 2^64)%N then (if neg : bool then (2^64 - v) mod 2^64 else v)%N else (2^64 - 1)%N.

(** base.hpp:16-21 [id_from_string], disk.cpp:143 [wal_id] *)
Definition id_from_string (s : list byte) : N := match s with [] => 0%N | _ => strtoull s end.
Definition read_wal_id (f : wid_file) : N * wid_file :=
  let (l, k) := read_line (skipn (wpos f) (wcontent f)) in
  (id_from_string l, {| wcontent := wcontent f; wpos := wpos f + k |}).
(** opening the file: seek position 0 *)
Definition open_wid (content : list byte) : wid_file := {| wcontent := content; wpos := 0 |}.
