(** Columns of rows in memory: components/vector/vector.cpp, vector_operations.cpp 7-54 and 560-858, data_chunk.cpp, and
    the copy of the rows of a statement, components/physical_plan/base/operators/operator_raw_data.cpp 23-27.
    A vector has a kind (flat, constant, dictionary, sequence), a pointer to its values, a mask of NULLs and a buffer that
    owns the values.
    Simplifications: one cell per value (numbers; strings are in AliasModel and StrSegModel, nested types are left out), no
    conversions between types, allocation succeeds.  A mask is a list of bits as long as its count: masks are copied with the
    vector (validation.cpp 29-52), so they are values here; an access past the count is taken as undefined although the
    array has a word per row (the words are in ValidModel).  The child of a dictionary is kept by value: two references to one
    dictionary share it in the code, which can be seen only when one writes through it.  Index arrays are not written
    after they were handed over.  Asserts are off; where only an assert keeps a call away the result is [Err UB]. *)
From Verif Require Import Bytes Outcome IndexingModel.
Local Open Scope nat_scope.

(** indexing_vector.hpp 10 *)
Definition VCAP : nat := 1024.

(** ** Memory *)
(** A cell that was never written is [None].  [mem]: the arrays, [None] once released.  [bufs]: the array a buffer
    object (vector_buffer.hpp 75-103) owns. *)
Notation cell := (option Z) (only parsing).
Record heap := { mem : list (option (list cell)); bufs : list nat }.
(** vector_buffer.cpp 23-28, with the contents given *)
Definition alloc (h : heap) (cs : list cell) : heap * nat * nat :=
  ({| mem := mem h ++ [Some cs]; bufs := bufs h ++ [length (mem h)] |}, length (mem h), length (bufs h)).
Definition cells_of (h : heap) (a : nat) : option (list cell) :=
  match nth_error (mem h) a with Some (Some cs) => Some cs | _ => None end.
Definition set_cells (h : heap) (a : nat) (cs : list cell) : heap :=
  {| mem := list_set (mem h) a (Some cs); bufs := bufs h |}.
(** [data_], an array and an offset in it. *)
Notation ptr := (option (nat * nat)) (only parsing).
Definition rdc (h : heap) (p : ptr) (i : nat) : res cell :=
  match p with
  | None => Err UB
  | Some (a, off) => match cells_of h a with
                     | Some cs => match nth_error cs (off + i) with Some c => Ok c | None => Err UB end
                     | None => Err UB
                     end
  end.
(** The value of a cell; one that was never written has none. *)
Definition rd (h : heap) (p : ptr) (i : nat) : res Z :=
  do c <- rdc h p i; match c with Some z => Ok z | None => Err UB end.
Definition wrc (h : heap) (p : ptr) (i : nat) (c : cell) : res heap :=
  match p with
  | None => Err UB
  | Some (a, off) => match cells_of h a with
                     | Some cs => if off + i <? length cs then Ok (set_cells h a (list_set cs (off + i) c)) else Err UB
                     | None => Err UB
                     end
  end.

(** ** Masks (validation.cpp) *)
Record mask := { arr : option (list bool); cnt : nat }.
(** [row_is_valid], 106-114 *)
Definition row_ok (m : mask) (i : nat) : res bool :=
  match arr m with
  | None => Ok true
  | Some l => match nth_error l i with Some b => Ok b | None => Err UB end
  end.
(** [set], 148-166 *)
Definition mset (m : mask) (i : nat) (b : bool) : res mask :=
  match arr m with
  | None => if b then Ok m
            else if i <? cnt m then Ok {| arr := Some (list_set (repeat true (cnt m)) i false); cnt := cnt m |} else Err UB
  | Some l => if i <? length l then Ok {| arr := Some (list_set l i b); cnt := cnt m |} else Err UB
  end.
(** [set_all_invalid], 94-104: the first rows *)
Definition mclear (m : mask) (n : nat) : res mask :=
  if n =? 0 then Ok m else
  match arr m with
  | None => Err UB
  | Some l => if n <=? length l then Ok {| arr := Some (repeat false n ++ skipn n l); cnt := cnt m |} else Err UB
  end.
(** [slice], 168-185, for an offset above 0 *)
Definition mslice (m : mask) (off n : nat) : res mask :=
  match arr m with
  | None => Ok m
  | Some l => if off + n <=? length l then Ok {| arr := Some (firstn n (skipn off l)); cnt := n |} else Err UB
  end.
(** [resize], 277-297 *)
Definition mresize (m : mask) (n : nat) : mask :=
  match arr m with
  | None => {| arr := Some (repeat true n); cnt := n |}
  | Some l => if n <=? cnt m then m else {| arr := Some (l ++ repeat true (n - cnt m)); cnt := n |}
  end.
(** [copy_indexing], 306-323: the rows of the source that an index names *)
Fixpoint mcopy_loop (n i : nat) (t s : mask) (ix : indexing) (soff toff : nat) : res mask :=
  match n with
  | O => Ok t
  | S k => do j <- get_index ix (soff + i); do b <- row_ok s j; do t' <- mset t (toff + i) b;
           mcopy_loop k (S i) t' s ix soff toff
  end.
Definition mcopy (n : nat) (t s : mask) (ix : indexing) (soff toff : nat) : res mask :=
  match arr s, arr t with None, None => Ok t | _, _ => mcopy_loop n 0 t s ix soff toff end.
(** vector_operations.cpp 617-621: one bit for all rows *)
Fixpoint mfill (n i : nat) (t : mask) (b : bool) (toff : nat) : res mask :=
  match n with O => Ok t | S k => do t' <- mset t (toff + i) b; mfill k (S i) t' b toff end.

(** ** Vectors *)
Record own := { dat : ptr; msk : mask; buf : option nat }.
(** vector.hpp 82-88 and the fields 198-203.  A dictionary has its buffer for the index, a sequence for its numbers. *)
Inductive vec :=
| Flat (o : own)
| Constant (o : own)
| Dict (o : own) (ix : indexing) (child : vec)
| Seq (o : own) (start inc : Z) (n : nat).
Definition own_of (v : vec) : own := match v with Flat o | Constant o | Dict o _ _ | Seq o _ _ _ => o end.

(** A value of a row, [None] for NULL. *)
Notation val := (option Z) (only parsing).
Definition present (x : val) : bool := match x with Some _ => true | None => false end.

(** int64: [fit] where leaving the range is undefined, [w64] where the arithmetic is unsigned *)
Definition fit (z : Z) : res Z := if ((- 2 ^ 63 <=? z) && (z <? 2 ^ 63))%Z then Ok z else Err UB.
Definition w64 (z : Z) : Z := ((z + 2 ^ 63) mod 2 ^ 64 - 2 ^ 63)%Z.

(** The constructor, vector.cpp 42-43 and 65-100: values 0, no NULL.  [validity_.reset()] leaves a mask without array for 1024 rows,
    resized for more. *)
Definition new_vec (h : heap) (capacity : nat) : heap * vec :=
  let '(h', a, b) := alloc h (repeat (Some 0%Z) capacity) in
  let m := {| arr := None; cnt := VCAP |} in
  (h', Flat {| dat := Some (a, 0); msk := if VCAP <? capacity then mresize m capacity else m; buf := Some b |}).

(** [set_value], 419-433 and 435-488 *)
Fixpoint set_value (h : heap) (v : vec) (i : nat) (x : val) : res (heap * vec) :=
  let plain o mk :=
    do m <- mset (msk o) i (present x);
    let o' := {| dat := dat o; msk := m; buf := buf o |} in
    match x with
    | None => Ok (h, mk o')
    | Some z => do h' <- wrc h (dat o) i (Some z); Ok (h', mk o')
    end in
  match v with
  | Dict o ix c => do j <- get_index ix i; do '(h', c') <- set_value h c j x; Ok (h', Dict o ix c')
  | Flat o => plain o Flat
  | Constant o => plain o Constant
  | Seq o s inc n => plain o (fun o' => Seq o' s inc n)
  end.

(** [reference(value)], 134-164: the mask is not reset *)
Definition reference_value (h : heap) (v : vec) (x : val) : res (heap * vec) :=
  let '(h', a, b) := alloc h [None] in
  set_value h' (Constant {| dat := Some (a, 0); msk := msk (own_of v); buf := Some b |}) 0 x.
(** The constructor from a value, 45-49. *)
Definition const_vec (h : heap) (x : val) (capacity : nat) : res (heap * vec) :=
  reference_value h (Flat {| dat := None; msk := {| arr := Some (repeat true capacity); cnt := capacity |}; buf := None |}) x.
(** [sequence], 1010-1019 *)
Definition sequence (v : vec) (start inc : Z) (n : nat) : vec :=
  Seq {| dat := dat (own_of v); msk := {| arr := None; cnt := n |}; buf := None |} start inc n.

(** [value_internal], 550-578: follows dictionaries.  The numbers of a sequence are read from the vector itself, not from
    the child that is the sequence; the buffer of a dictionary was never written. *)
Fixpoint locate (self v : vec) (i : nat) : res (nat + Z) :=
  match v with
  | Constant _ => Ok (inl 0)
  | Flat _ => Ok (inl i)
  | Dict _ ix c => do j <- get_index ix i; locate self c j
  | Seq _ _ _ _ => match self with
                   | Seq _ s inc _ => do z <- fit (s + inc * Z.of_nat i); Ok (inr z)
                   | _ => Err UB
                   end
  end.
(** The rest of it, 580-594, and [value], 772-781: mask and values of the vector itself *)
Definition value (h : heap) (v : vec) (i : nat) : res val :=
  do p <- locate v v i;
  match p with
  | inr z => Ok (Some z)
  | inl j => do b <- row_ok (msk (own_of v)) j;
             if b then do z <- rd h (dat (own_of v)) j; Ok (Some z) else Ok None
  end.

(** [slice(indexing, count)], 234-262 *)
Definition slice_sel (v : vec) (ix : indexing) (count : nat) : res vec :=
  match v with
  | Constant _ => Ok v
  | Dict o ix0 c => do ix' <- slice ix0 ix count; Ok (Dict o ix' c)
  | _ => Ok (Dict {| dat := dat (own_of v); msk := msk (own_of v); buf := None |} ix v)
  end.
(** [slice(other, offset, end)], 184-227; the referenced vector is [v] *)
Definition slice_range (v : vec) (off en : nat) : res vec :=
  if en <? off then Err UB else
  match v with
  | Constant _ => Ok v
  | Flat o => if off =? 0 then Ok v
              else do m <- mslice (msk o) off (en - off);
                   match dat o with
                   | Some (a, k) => Ok (Flat {| dat := Some (a, k + off); msk := m; buf := buf o |})
                   | None => Err UB
                   end
  | _ => slice_sel v (Some (seq off (en - off))) (en - off)
  end.

(** ** Copies (vector_operations.cpp) *)
(** vector.hpp 16-31 [zero_indexing_vector] *)
Definition zeros (count : nat) : indexing := Some (repeat 0 (if count <=? VCAP then VCAP else count)).
(** [templated_copy], 41-54 *)
Fixpoint copy_data (n i : nat) (h : heap) (s : ptr) (ix : indexing) (t : ptr) (soff toff : nat) : res heap :=
  match n with
  | O => Ok h
  | S k => do j <- get_index ix (soff + i); do c <- rdc h s j; do h' <- wrc h t (toff + i) c;
           copy_data k (S i) h' s ix t soff toff
  end.
(** [generate_sequence] with an index, 23-39 *)
Fixpoint seq_at (n i : nat) (h : heap) (t : ptr) (ix : indexing) (start inc : Z) : res heap :=
  match n with
  | O => Ok h
  | S k => do j <- get_index ix i; do h' <- wrc h t j (Some (w64 (start + inc * Z.of_nat j))); seq_at k (S i) h' t ix start inc
  end.
(** [copy], 605-625 and the loops: the source is flat or constant by now *)
Definition copy_rows (h : heap) (s : own) (is_const : bool) (ix : indexing) (t : vec) (soff toff n : nat) : res (heap * vec) :=
  if n =? 0 then Ok (h, t) else
  match t with
  | Flat o =>
    do m <- (if is_const then do b <- row_ok (msk s) 0; mfill n 0 (msk o) b toff else mcopy n (msk o) (msk s) ix soff toff);
    do h' <- copy_data n 0 h (dat s) ix (dat o) soff toff;
    Ok (h', Flat {| dat := dat o; msk := m; buf := buf o |})
  | _ => Err UB
  end.
(** 567-603: a dictionary is replaced by its child and a merged index, a sequence written out into a vector of 1024 rows,
    an index of zeros stands for a constant.  (A constant as target of one row is left out.) *)
Fixpoint copy (h : heap) (s : vec) (t : vec) (ix : indexing) (scount soff toff n : nat) : res (heap * vec) :=
  match s with
  | Dict _ ix0 c => do ix' <- slice ix0 ix scount; copy h c t ix' scount soff toff n
  | Seq _ start inc _ =>
    match new_vec h VCAP with
    | (h1, q) => do h2 <- seq_at scount 0 h1 (dat (own_of q)) ix start inc;
                 copy_rows h2 (own_of q) false ix t soff toff (scount - soff)
    end
  | Constant o => copy_rows h o true (zeros n) t soff toff n
  | Flat o => copy_rows h o false ix t soff toff n
  end.
(** 836-858 *)
Definition copy_sel (h : heap) (s t : vec) (ix : indexing) (scount soff toff : nat) : res (heap * vec) :=
  copy h s t ix scount soff toff (scount - soff).

(** [generate_sequence], 7-21 *)
Fixpoint seq_cells (n : nat) (i : nat) (start inc : Z) : res (list cell) :=
  match n with
  | O => Ok []
  | S k => do z <- fit (start + inc * Z.of_nat i); do r <- seq_cells k (S i) start inc; Ok (Some z :: r)
  end.
(** [flatten(count)], vector.cpp 793-929 *)
Definition flatten (h : heap) (v : vec) (count : nat) : res (heap * vec) :=
  match v with
  | Flat _ => Ok (h, v)
  | Dict _ _ _ => let '(h1, t) := new_vec h count in copy_sel h1 v t None count 0 0
  | Constant o =>
    do b <- row_ok (msk o) 0;
    if b then
      do c <- rdc h (dat o) 0;
      let '(h1, a, f) := alloc h (repeat c count ++ repeat None (Nat.max VCAP count - count)) in
      Ok (h1, Flat {| dat := Some (a, 0); msk := msk o; buf := Some f |})
    else
      do m <- mclear (msk o) count;
      let '(h1, a, f) := alloc h (repeat None (Nat.max VCAP count)) in
      Ok (h1, Flat {| dat := Some (a, 0); msk := m; buf := Some f |})
  | Seq o start inc n =>
    do cs <- seq_cells n 0 start inc;
    let '(h1, a, f) := alloc h (cs ++ repeat None (Nat.max VCAP n - n)) in
    Ok (h1, Flat {| dat := Some (a, 0); msk := msk o; buf := Some f |})
  end.
(** [to_unified_format], 949-980, with [flatten(indexing, count)], 931-947: an index, values and a mask; the vector may be
    changed to one of another kind. *)
Record unified := { u_ix : indexing; u_dat : ptr; u_msk : mask }.
Definition to_unified (h : heap) (v : vec) (count : nat) : res (heap * vec * unified) :=
  match v with
  | Dict o ix c =>
    match c with
    | Flat q => Ok (h, v, {| u_ix := ix; u_dat := dat q; u_msk := msk q |})
    | Seq q start inc _ =>
      let '(h1, a, f) := alloc h (repeat None VCAP) in
      do h2 <- seq_at count 0 h1 (Some (a, 0)) ix start inc;
      let q' := {| dat := Some (a, 0); msk := msk q; buf := Some f |} in
      Ok (h2, Dict o ix (Flat q'), {| u_ix := ix; u_dat := dat q'; u_msk := msk q' |})
    | _ => Err Throw
    end
  | Constant o => Ok (h, v, {| u_ix := zeros count; u_dat := dat o; u_msk := msk o |})
  | _ => do '(h1, w) <- flatten h v count;
         Ok (h1, w, {| u_ix := None; u_dat := dat (own_of w); u_msk := msk (own_of w) |})
  end.
(** How its users read row [i], e.g. vector_operations.cpp 66-87. *)
Definition unified_row (h : heap) (u : unified) (i : nat) : res val :=
  do j <- get_index (u_ix u) i; do b <- row_ok (u_msk u) j;
  if b then do z <- rd h (u_dat u) j; Ok (Some z) else Ok None.

(** [resize], vector.cpp 367-398 with 300-307: new memory for the buffer, the old one is released *)
Definition resize (h : heap) (v : vec) (cur new : nat) : res (heap * vec) :=
  if cur =? new then Ok (h, v) else
  match v with
  | Flat o =>
    match dat o, buf o with
    | Some (a, off), Some b =>
      match cells_of h a, nth_error (bufs h) b with
      | Some cs, Some old =>
        let k := Nat.min cur new in
        if off + k <=? length cs then
          let fresh := firstn k (skipn off cs) ++ repeat None (new - k) in
          let h' := {| mem := list_set (mem h) old None ++ [Some fresh]; bufs := list_set (bufs h) b (length (mem h)) |} in
          Ok (h', Flat {| dat := Some (length (mem h), 0); msk := mresize (msk o) new; buf := Some b |})
        else Err UB
      | _, _ => Err UB
      end
    | _, _ => Err UB
    end
  | _ => Err UB
  end.

(** ** Chunks (data_chunk.cpp) *)
Record chunk := { cols : list vec; count : nat; cap : nat }.
(** 7-16 *)
Fixpoint new_cols (h : heap) (k capacity : nat) : heap * list vec :=
  match k with
  | O => (h, [])
  | S r => let '(h1, v) := new_vec h capacity in let '(h2, vs) := new_cols h1 r capacity in (h2, v :: vs)
  end.
Definition new_chunk (h : heap) (k capacity : nat) : heap * chunk :=
  let '(h', vs) := new_cols h k capacity in (h', {| cols := vs; count := 0; cap := capacity |}).
(** [set_value], 46-48, row by row *)
Fixpoint set_col (h : heap) (v : vec) (i : nat) (xs : list val) : res (heap * vec) :=
  match xs with [] => Ok (h, v) | x :: r => do '(h', v') <- set_value h v i x; set_col h' v' (S i) r end.
(** A loop over the columns, each with an argument. *)
Fixpoint on_cols {A} (f : A -> heap -> vec -> res (heap * vec)) (h : heap) (l : list (A * vec)) : res (heap * list vec) :=
  match l with
  | [] => Ok (h, [])
  | (x, v) :: r => do '(h1, v') <- f x h v; do '(h2, vs) <- on_cols f h1 r; Ok (h2, v' :: vs)
  end.
Definition set_cols (h : heap) (vs : list vec) (xss : list (list val)) : res (heap * list vec) :=
  on_cols (fun xs h v => set_col h v 0 xs) h (combine xss vs).
(** 187-193 [slice]; the cache (vector.cpp 264-279) only avoids to merge one index twice *)
Fixpoint slice_cols (vs : list vec) (ix : indexing) (n : nat) : res (list vec) :=
  match vs with [] => Ok [] | v :: r => do v' <- slice_sel v ix n; do r' <- slice_cols r ix n; Ok (v' :: r') end.
Definition chunk_slice (c : chunk) (ix : indexing) (n : nat) : res chunk :=
  do vs <- slice_cols (cols c) ix n; Ok {| cols := vs; count := n; cap := cap c |}.
(** [flatten], 161-165 *)
Definition flatten_cols (h : heap) (vs : list vec) (n : nat) : res (heap * list vec) :=
  on_cols (fun _ h v => flatten h v n) h (map (pair tt) vs).
Definition chunk_flatten (h : heap) (c : chunk) : res (heap * chunk) :=
  do '(h', vs) <- flatten_cols h (cols c) (count c); Ok (h', {| cols := vs; count := count c; cap := cap c |}).
(** Column by column copies, 72-75 and 150-157 *)
Definition copy_cols (h : heap) (ss ts : list vec) (ix : indexing) (scount soff toff : nat) : res (heap * list vec) :=
  on_cols (fun s h t => copy_sel h s t ix scount soff toff) h (combine ss ts).
(** [copy], 68-77 *)
Definition chunk_copy (h : heap) (s t : chunk) (off : nat) : res (heap * chunk) :=
  do '(h', vs) <- copy_cols h (cols s) (cols t) None (count s) off 0;
  Ok (h', {| cols := vs; count := count s - off; cap := cap t |}).
(** [next_power_of_two], vector_buffer.hpp 16-30, for the sizes met here *)
Definition next_pow2 (n : nat) : nat := if n =? 0 then 1 else 2 ^ Nat.log2_up n.
Definition resize_cols (h : heap) (vs : list vec) (cur new : nat) : res (heap * list vec) :=
  on_cols (fun _ h v => resize h v cur new) h (map (pair tt) vs).
(** [append], 130-159 *)
Definition append (h : heap) (t s : chunk) (may_resize : bool) (sel : option (list nat)) : res (heap * chunk) :=
  let add := match sel with Some ix => length ix | None => count s end in
  let new := count t + add in
  if count s =? 0 then Ok (h, t)
  else if negb (length (cols t) =? length (cols s)) then Err Throw
  else
    do '(h1, t1) <-
      (if cap t <? new then
         if may_resize then
           do '(h', vs) <- resize_cols h (cols t) (count t) (next_pow2 new);
           Ok (h', {| cols := vs; count := count t; cap := next_pow2 new |})
         else Err Throw
       else Ok (h, t));
    do '(h2, vs) <- copy_cols h1 (cols s) (cols t1) sel add 0 (count t1);
    Ok (h2, {| cols := vs; count := new; cap := cap t1 |}).
(** [reset], 27-33 *)
Definition reset (c : chunk) : chunk :=
  match cols c with [] => c | _ => {| cols := cols c; count := 0; cap := VCAP |} end.
(** [reference], 59-66, of a chunk with as many columns: the columns share their memory *)
Definition reference (c : chunk) : chunk := c.

(** The rows of an INSERT on their way to the plan: operator_raw_data.cpp 23-27, called by create_plan_data.cpp 16-19; the
    chunk made has the default capacity, operator_data.hpp 47-51. *)
Definition raw_data (h : heap) (c : chunk) : res (heap * chunk) :=
  let '(h1, t) := new_chunk h (length (cols c)) VCAP in chunk_copy h1 c t 0.
