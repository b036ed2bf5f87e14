(** Columns of strings (components/table/column_segment.cpp, column_data.cpp): a segment is one block of
    memory that holds, from its start, the size and the end of the dictionary (4 bytes each, the rest of
    a header of 20 bytes unused) and one 4-byte offset per row, and, from its end downwards, the bytes of
    the strings.  Not modelled: pinning of blocks, the contents of overflow blocks (they are never read)
    and the lookup of the segment of a row, which is here the first that ends after the row.  Each
    segment has memory of its own: column_state.cpp 112-124 finds the memory by the block id, a 32-bit
    counter (storage/standard_buffer_manager.hpp 73, .cpp 15, 78, 98) that starts at 0, as 1 << 62 does
    not fit it, so this holds for the first 2^32 - 1 blocks of a buffer manager.  Strings are shorter
    than 2^32 - 4 bytes.  Asserts are not executed. *)
From Verif Require Import Bytes Outcome.

(** Memory; accesses outside the block are undefined. *)
Definition rd (m : list byte) (pos n : nat) : res (list byte) :=
  if pos + n <=? length m then Ok (firstn n (skipn pos m)) else Err UB.
Definition wr (m : list byte) (pos : nat) (b : list byte) : res (list byte) :=
  if pos + length b <=? length m then Ok (firstn pos m ++ b ++ skipn (pos + length b) m) else Err UB.

(** column_segment.cpp 42-52: a 4-byte number, least significant byte first. *)
Definition le32 (n : N) : list byte := rev (be 4 n).
Definition rd32 (m : list byte) (pos : nat) : res N := do b <- rd m pos 4; Ok (unbe (rev b)).
Definition wr32 (m : list byte) (pos : nat) (n : N) : res (list byte) := wr m pos (le32 n).
(** A 4-byte number read as int32_t, and the way back. *)
Definition as_int (n : N) : Z := if (n <? 2 ^ 31)%N then Z.of_N n else (Z.of_N n - 2 ^ 32)%Z.
Definition of_int (z : Z) : N := Z.to_N (z mod 2 ^ 32).

Definition HEADER : nat := 20.
(** column_segment.cpp 14-15, 364-366. *)
Definition limit (bs : nat) : nat := Nat.min (bs / 4 / 8 * 8) (N.to_nat 4096).
Definition MARKER : nat := 8.

(** column_state.hpp 203-231: the block that overflow strings are written to. *)
Record over := Over { o_id : N; o_offset : N; o_size : N }.
Record seg := Seg { g_mem : list byte; g_count : nat; g_over : option over; g_next : N }.

(** column_segment.cpp 598-636, 664-677, column_data.cpp 367-381: a fresh segment of a block; what the
    memory held is not known. *)
Definition fresh (junk : list byte) : res seg :=
  do m <- wr32 junk 0 0; do m <- wr32 m 4 (N.of_nat (length junk)); Ok (Seg m 0 None 0).

(** column_segment.cpp 129-162, without the contents. *)
Definition write_over (bs : nat) (s : list byte) (g : seg) : seg * (N * N) :=
  let total := (N.of_nat (length s) + 4)%N in
  let mk := Over (g_next g) total (N.max total (N.of_nat bs)) in
  match g_over g with
  | Some o =>
      if (o_size o <=? o_offset o + total)%N
      then (Seg (g_mem g) (g_count g) (Some mk) (g_next g + 1), (g_next g, 0%N))
      else (Seg (g_mem g) (g_count g) (Some (Over (o_id o) (o_offset o + total) (o_size o))) (g_next g), (o_id o, o_offset o))
  | None => (Seg (g_mem g) (g_count g) (Some mk) (g_next g + 1), (g_next g, 0%N))
  end.

Definition with_mem (g : seg) (m : list byte) : seg := Seg m (g_count g) (g_over g) (g_next g).
Definition with_count (g : seg) (n : nat) : seg := Seg (g_mem g) n (g_over g) (g_next g).

(** Add to the dictionary: lines 422-426 and 432-435. *)
Definition push (m : list byte) (b : list byte) : res (list byte * N) :=
  do d <- rd32 m 0; do e <- rd32 m 4;
  let d' := (d + N.of_nat (length b))%N in
  do m <- wr32 m 0 d';
  if (d' <=? e)%N then do m <- wr m (N.to_nat (e - d')) b; Ok (m, d') else Err UB.

(** column_segment.cpp 387-443: one row; [None] when it does not fit. *)
Definition append_row (bs : nat) (g : seg) (i : nat) (remaining : nat) (v : option (list byte)) : res (option (seg * nat)) :=
  if remaining <? 4 then Ok None
  else
    let remaining := remaining - 4 in
    match v with
    | None =>
        do o <- (if 0 <? i then rd32 (g_mem g) (HEADER + 4 * (i - 1)) else Ok 0%N);
        do m <- wr32 (g_mem g) (HEADER + 4 * i) o;
        Ok (Some (with_mem g m, remaining))
    | Some s =>
        let big := limit bs <=? length s in
        let required := if big then MARKER else length s in
        if remaining <? required then Ok None
        else if big
        then
          let '(g, (block, off)) := write_over bs s g in
          do '(m, d) <- push (g_mem g) (le32 block ++ le32 off);
          do m <- wr32 m (HEADER + 4 * i) (of_int (- Z.of_N d));
          Ok (Some (with_mem g m, remaining - MARKER))
        else
          do '(m, d) <- push (g_mem g) s;
          do m <- wr32 m (HEADER + 4 * i) d;
          Ok (Some (with_mem g m, remaining - length s))
    end.
(** The loop: the segment and how many rows were taken. *)
Fixpoint append_rows (bs : nat) (g : seg) (i : nat) (remaining : nat) (vs : list (option (list byte))) : res (seg * nat) :=
  match vs with
  | [] => Ok (g, i)
  | v :: r =>
      do x <- append_row bs g i remaining v;
      match x with
      | None => Ok (g, i)
      | Some (g', remaining') => append_rows bs g' (S i) remaining' r
      end
  end.
(** column_segment.cpp 171-177, 374-386: the size of a segment is that of its block.  When the header
    does not fit, the subtraction wraps around and rows are written outside the block. *)
Definition append (bs : nat) (g : seg) (vs : list (option (list byte))) : res (seg * nat) :=
  do d <- rd32 (g_mem g) 0;
  let used := (d + 4 * N.of_nat (g_count g) + N.of_nat HEADER)%N in
  if (used <=? N.of_nat bs)%N
  then
    do '(g', n) <- append_rows bs g (g_count g) (N.to_nat (N.of_nat bs - used)) vs;
    Ok (with_count g' n, n - g_count g)
  else Err UB.

(** column_segment.cpp 109-117: offset 0 gives the empty string. *)
Definition fetch_at (m : list byte) (off : Z) (len : N) : res (list byte) :=
  if (off =? 0)%Z then Ok []
  else
    do e <- rd32 m 4;
    let pos := (Z.of_N e - off)%Z in
    if (pos <? 0)%Z then Err UB else rd m (Z.to_nat pos) (N.to_nat len).
(** column_segment.cpp 75-96, 118-127.  A marker has 4 bytes of block and 4 of offset (lines 368-372) but
    is read as 8 and 4: memcpy of 8 bytes into a 4-byte member, which is taken here to fill the member
    after it as well, and then the offset from the 4 bytes after the marker.  The block is not used. *)
Definition fetch_from (m : list byte) (off : Z) (len : N) : res (list byte) :=
  if (off <? 0)%Z
  then
    do e <- rd32 m 4;
    let pos := (Z.of_N e + off)%Z in
    if (pos <? 0)%Z then Err UB
    else
      do _ <- rd m (Z.to_nat pos) 8;
      do o <- rd32 m (Z.to_nat pos + 8);
      fetch_at m (as_int o) len
  else fetch_at m off len.
(** The length is the difference of the offsets, as uint32_t. *)
Definition length_of (off prev : Z) : N := of_int (Z.abs off - Z.abs prev).
(** column_segment.cpp 209-229. *)
Definition fetch_row (g : seg) (i : nat) : res (list byte) :=
  do o <- rd32 (g_mem g) (HEADER + 4 * i);
  do p <- (if i =? 0 then Ok 0%N else rd32 (g_mem g) (HEADER + 4 * (i - 1)));
  fetch_from (g_mem g) (as_int o) (length_of (as_int o) (as_int p)).
(** column_segment.cpp 575-595. *)
Fixpoint scan_loop (m : list byte) (i n : nat) (prev : Z) : res (list (list byte)) :=
  match n with
  | O => Ok []
  | S n =>
      do o <- rd32 m (HEADER + 4 * i);
      do s <- fetch_from m (as_int o) (length_of (as_int o) prev);
      do r <- scan_loop m (S i) n (as_int o);
      Ok (s :: r)
  end.
Definition scan (g : seg) (start n : nat) : res (list (list byte)) :=
  do p <- (if 0 <? start then rd32 (g_mem g) (HEADER + 4 * (start - 1)) else Ok 0%N);
  scan_loop (g_mem g) start n (as_int p).

Section Column.
  Variable bs : nat.
  (** What the block of the n-th segment holds before it is used. *)
  Variable junk : nat -> list byte.

  (** A column is a list of segments.  column_data.cpp 198-206. *)
  Definition column := list seg.
  Definition initialize_append (c : column) : res column :=
    match c with [] => do g <- fresh (junk 0); Ok [g] | _ => Ok c end.
  (** column_data.cpp 214-233: the last segment takes what it can, then a new one is made. *)
  Fixpoint append_data (fuel : nat) (c : column) (vs : list (option (list byte))) : res column :=
    match fuel with
    | O => Err Diverge
    | S f =>
        match rev c with
        | [] => Err UB
        | g :: before =>
            do '(g', n) <- append bs g vs;
            if n =? length vs then Ok (rev (g' :: before))
            else do h <- fresh (junk (length c)); append_data f (rev (h :: g' :: before)) (skipn n vs)
        end
    end.
  (** One call of append of the table: column_data.cpp 198-212. *)
  Definition append_chunk (c : column) (vs : list (option (list byte))) : res column :=
    do c <- initialize_append c; append_data (2 + length vs) c vs.
  Fixpoint append_chunks (c : column) (chunks : list (list (option (list byte)))) : res column :=
    match chunks with [] => Ok c | vs :: r => do c' <- append_chunk c vs; append_chunks c' r end.

  (** The segment of a row and its place there. *)
  Fixpoint find_seg (c : column) (row : nat) : option (seg * nat) :=
    match c with
    | [] => None
    | g :: r => if row <? g_count g then Some (g, row) else find_seg r (row - g_count g)
    end.
  (** column_data.cpp 272-279. *)
  Definition column_fetch (c : column) (row : nat) : res (list byte) :=
    match find_seg c row with Some (g, i) => fetch_row g i | None => Err UB end.
  (** column_data.cpp 383-438: every row is fetched, then the rows of each segment are scanned over the
      same places of the result. *)
  Fixpoint fetches (g : seg) (i n : nat) : res unit :=
    match n with O => Ok tt | S n => do _ <- fetch_row g i; fetches g (S i) n end.
  Fixpoint column_scan (c : column) (start n : nat) : res (list (list byte)) :=
    match c with
    | [] => Ok []
    | g :: r =>
        if g_count g <=? start then column_scan r (start - g_count g) n
        else
          let k := Nat.min n (g_count g - start) in
          do _ <- fetches g start k;
          do a <- scan g start k;
          do b <- (if n - k =? 0 then Ok [] else column_scan r 0 (n - k));
          Ok (a ++ b)
    end.
End Column.
