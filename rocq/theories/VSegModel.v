(** Model of the column that keeps which rows are NULL: column_segment.cpp (VALIDITY segments) and
    column_data.cpp as used by validity_column_data.cpp.
    A segment is an array of 64-bit words, one bit for a row (set: not NULL), and a number of rows.  Words
    are read and written as on a little-endian machine, so byte [k] of the block is bits 8(k mod 8).. of
    word [k / 8].  Reading or writing outside an array is undefined.  The buffer manager (pinning) is not
    modelled, updates of the column are not (they are in UpdModel), asserts are off. *)
From Verif Require Import Bytes Outcome ValidModel.
Local Open Scope nat_scope.

Record seg := Seg { g_words : list N; g_count : nat }.
(** What is appended: unified_vector_format, i.e. the mask ([None]: no array, all rows valid) and the
    index vector. *)
Record uvf := Uvf { u_valid : option (nat -> bool); u_idx : nat -> nat }.
(** The mask of the vector scanned into: validation.hpp:45-110.  The array, if there is one, belongs to
    this vector alone (a shared one is in ValidModel). *)
Record rmask := RMask { r_words : option (list N); r_count : nat }.

(** [ws[row / 64] &= ~(1 << row % 64)], validation.cpp:71-85 with an array. *)
Definition clear (ws : list N) (row : nat) : res (list N) :=
  match nth_error ws (row / BITS) with
  | Some w => Ok (upd (row / BITS) (N.land w (bnot (bit (row mod BITS)))) ws)
  | None => Err UB
  end.
(** validation.cpp:106-114 with an array. *)
Definition is_set (ws : list N) (row : nat) : res bool :=
  match nth_error ws (row / BITS) with
  | Some w => Ok (negb (N.land w (bit (row mod BITS)) =? 0)%N)
  | None => Err UB
  end.
(** The array of a result, made when there is none: validation.cpp:272-281, column_segment.cpp:530-533,
    563-566.  A new array has a word for every row, validation.cpp:5-11. *)
Definition words_of (m : rmask) : list N := match r_words m with Some ws => ws | None => fresh (r_count m) end.
Definition r_set_invalid (m : rmask) (row : nat) : res rmask :=
  do ws <- clear (words_of m) row; Ok (RMask (Some ws) (r_count m)).
(** A vector that was just made: vector.hpp, validation.hpp (no array). *)
Definition fresh_mask (cap : nat) : rmask := RMask None cap.

(** validity_details, validation.hpp:112-255: tables of 65 words each, written out there. *)
Definition LOWER (n : nat) : N := shr MAX_ENTRY (BITS - n).
Definition UPPER (n : nat) : N := shl MAX_ENTRY (BITS - n).

(** column_segment.cpp:193-207 [validity_fetch_row] *)
Definition fetch_row (g : seg) (row : nat) (m : rmask) (idx : nat) : res rmask :=
  do v <- is_set (g_words g) row;
  if v then Ok m else r_set_invalid m idx.

(** column_segment.cpp:475-542 [validity_scan_partial], the loop.  [re], [ri] are result_entry and
    result_idx, [ie], [ii] input_entry and input_idx. *)
Fixpoint partial_loop (fuel : nat) (ws : list N) (m : rmask) (re ri ie ii pos n : nat) : res rmask :=
  if n <=? pos then Ok m else
  match fuel with
  | O => Err Diverge
  | S f =>
    match nth_error ws ie with
    | None => Err UB
    | Some w =>
      let '(mask, off, re', ri', ie', ii') :=
        if ri <? ii then
          (N.lor (shr w (ii - ri)) (UPPER (ii - ri)), BITS - ii, re, ri + (BITS - ii), S ie, 0)
        else if ii <? ri then
          (N.lor (shl (N.land w (bnot (UPPER (ri - ii)))) (ri - ii)) (LOWER (ri - ii)), BITS - ri,
           S re, 0, ie, ii + (BITS - ri))
        else (w, BITS - ri, S re, 0, S ie, 0) in
      let pos' := pos + off in
      let mask' := if n <? pos' then N.lor mask (UPPER (pos' - n)) else mask in
      do m' <- (if (mask' =? MAX_ENTRY)%N then Ok m
                else match nth_error (words_of m) re with
                     | None => Err UB
                     | Some r => Ok (RMask (Some (upd re (N.land r mask') (words_of m))) (r_count m))
                     end);
      partial_loop f ws m' re' ri' ie' ii' pos' n
    end
  end.
Definition scan_partial (g : seg) (start n : nat) (m : rmask) (off : nat) : res rmask :=
  partial_loop n (g_words g) m (off / BITS) (off - off / BITS * BITS) (start / BITS) (start - start / BITS * BITS) 0 n.

(** column_segment.cpp:544-573 [validity_scan]; the result is flat. *)
Fixpoint word_loop (k i : nat) (ws : list N) (se : nat) (m : rmask) : res rmask :=
  match k with
  | O => Ok m
  | S k =>
    match nth_error ws (se + i) with
    | None => Err UB
    | Some w =>
      do m' <- (if (match r_words m with None => true | Some _ => false end) && (w =? MAX_ENTRY)%N then Ok m
                else if i <? length (words_of m) then Ok (RMask (Some (upd i w (words_of m))) (r_count m))
                else Err UB);
      word_loop k (S i) ws se m'
    end
  end.
Definition scan (g : seg) (start n : nat) (m : rmask) : res rmask :=
  if start mod BITS =? 0 then word_loop ((n + (BITS - 1)) / BITS) 0 (g_words g) (start / BITS) m
  else scan_partial g start n m 0.

(** column_data.cpp:402-435.  The head of [c] is state.current, [row] the row within it, [off] the number
    of rows scanned before; every row is fetched and then the stretch is scanned over it. *)
Fixpoint fetches (g : seg) (row : nat) (m : rmask) (off n : nat) : res rmask :=
  match n with O => Ok m | S n => do m' <- fetch_row g row m off; fetches g (S row) m' (S off) n end.
Fixpoint scan_vector (entire : bool) (c : list seg) (row off n : nat) (m : rmask) : res rmask :=
  if n =? 0 then Ok m else
  match c with
  | [] => Ok m
  | g :: r =>
    let k := Nat.min n (g_count g - row) in
    do m1 <- (if k =? 0 then Ok m
              else do m1 <- fetches g row m off k;
                   if entire then scan g row k m1 else scan_partial g row k m1 off);
    scan_vector entire r 0 (off + k) (n - k) m1
  end.
(** column_data.cpp:58-71 [get_vector_scan_type] for a flat result and a column without updates. *)
Definition scan_entire (c : list seg) (row n : nat) : bool :=
  match c with [] => true | g :: _ => n <=? g_count g - row end.
(** column_data.cpp:104-109, 440-451 [scan]. *)
Definition column_scan (c : list seg) (row n : nat) (m : rmask) : res rmask :=
  scan_vector (scan_entire c row n) c row 0 n m.
(** column_data.cpp:122-136, 138-144, 261-270: scans that always copy. *)
Definition column_scan_flat (c : list seg) (row n : nat) (m : rmask) : res rmask :=
  scan_vector false c row 0 n m.
(** segment tree: the segment of a row and what follows it, and the row within it. *)
Fixpoint seek (c : list seg) (row : nat) : list seg * nat :=
  match c with
  | [] => ([], row)
  | g :: r => if g_count g <=? row then match r with [] => (c, row) | _ => seek r (row - g_count g) end else (c, row)
  end.
(** column_data.cpp:272-279 [fetch_row]. *)
Definition column_fetch_row (c : list seg) (row : nat) (m : rmask) (idx : nat) : res rmask :=
  match seek c row with
  | (g :: _, i) => fetch_row g i m idx
  | ([], _) => Err UB
  end.

Section Size.
  (** segment_size in bytes *)
  Variable size : nat.
  (** column_segment.cpp:613-620: all bytes 0xFF. *)
  Definition new_seg : seg := Seg (repeat MAX_ENTRY (size / 8)) 0.
  (** column_segment.cpp:345-346; STANDARD_MASK_SIZE = 128 *)
  Definition max_tuples : nat := size / 128 * 1024.
  (** column_segment.cpp:353-359 *)
  Fixpoint append_loop (k i : nat) (ws : list N) (count : nat) (v : nat -> bool) (idx : nat -> nat) (off : nat) : res (list N) :=
    match k with
    | O => Ok ws
    | S k => do ws' <- (if v (idx (off + i)) then Ok ws else clear ws (count + i));
             append_loop k (S i) ws' count v idx off
    end.
  (** column_segment.cpp:338-362 [validity_append] *)
  Definition append (g : seg) (u : uvf) (off vcount : nat) : res (seg * nat) :=
    let n := Nat.min vcount (max_tuples - g_count g) in
    match u_valid u with
    | None => Ok (Seg (g_words g) (g_count g + n), n)
    | Some v => do ws <- append_loop n 0 (g_words g) (g_count g) v (u_idx u) off;
                Ok (Seg ws (g_count g + n), n)
    end.
  (** column_data.cpp:214-233 [append_data]; a column is a list of segments. *)
  Fixpoint append_data (fuel : nat) (c : list seg) (u : uvf) (off count : nat) : res (list seg) :=
    match fuel with
    | O => Err Diverge
    | S f =>
      match rev c with
      | [] => Err UB
      | g :: before =>
        do '(g', n) <- append g u off count;
        if n =? count then Ok (rev (g' :: before))
        else append_data f (rev (new_seg :: g' :: before)) u (off + n) (count - n)
      end
    end.
  (** column_data.cpp:198-212: one append of [count] rows. *)
  Definition append_chunk (c : list seg) (u : uvf) (count : nat) : res (list seg) :=
    append_data (S (S count)) (match c with [] => [new_seg] | _ => c end) u 0 count.
  Fixpoint append_chunks (c : list seg) (l : list (uvf * nat)) : res (list seg) :=
    match l with [] => Ok c | (u, n) :: r => do c' <- append_chunk c u n; append_chunks c' r end.

  (** Bytes of the block: [memset(ptr + from, 0xFF, size - from)]. *)
  Definition fill_word (from i : nat) (w : N) : N :=
    if from <=? 8 * i then MAX_ENTRY
    else if 8 * S i <=? from then w
    else N.lor w (UPPER (8 * (8 * S i - from))).
  Fixpoint fill (from i : nat) (ws : list N) : list N :=
    match ws with [] => [] | w :: r => fill_word from i w :: fill from (S i) r end.
  (** validation.cpp:87-92 [set_valid] in a loop: the word with the number of the row is set to 1. *)
  Fixpoint set_valids (k i : nat) (ws : list N) : res (list N) :=
    match k with
    | O => Ok ws
    | S k => if i <? length ws then set_valids k (S i) (upd i 1%N ws) else Err UB
    end.
  (** column_segment.cpp:1186-1207 [revert_append]; [start] is the row within the segment. *)
  Definition revert_append (g : seg) (start : nat) : res seg :=
    do '(ws, from) <-
      (if start mod 8 =? 0 then Ok (g_words g, start / 8)
       else let bit_end := (start / 8 + 1) * 8 in
            do ws <- set_valids (bit_end - start) start (g_words g); Ok (ws, bit_end / 8));
    Ok (Seg (fill from 0 ws) start).
End Size.
