(** Model of NULL masks: components/vector/validation.hpp, validation.cpp.
    A mask points to a shared array of 64-bit words (or to nothing: all rows valid).  The arrays live in
    a heap so that sharing is visible; an array has as many words as the mask has rows (validation.cpp:
    5-11: [size] words are allocated, not [entry_count(size)]).  Reading or writing outside an array,
    or through the null pointer, is undefined.  Allocation always succeeds; nothing is freed. *)
From Verif Require Import Bytes Outcome.
Local Open Scope nat_scope.

Definition heap := list (list N).
Record mask := { mptr : option nat; mcnt : nat }.

Definition MAX_ENTRY : N := (2 ^ 64 - 1)%N.
Definition BITS : nat := 64.
(** validation.hpp:33-35 *)
Definition entry_count (n : nat) : nat := (n + (BITS - 1)) / BITS.

Definition rdw (h : heap) (a i : nat) : res N :=
  match nth_error h a with
  | Some ws => match nth_error ws i with Some w => Ok w | None => Err UB end
  | None => Err UB
  end.
Fixpoint upd {A} (i : nat) (x : A) (l : list A) : list A :=
  match l, i with [], _ => [] | _ :: r, O => x :: r | y :: r, S k => y :: upd k x r end.
Definition wrw (h : heap) (a i : nat) (w : N) : res heap :=
  match nth_error h a with
  | Some ws => if i <? length ws then Ok (upd a (upd i w ws) h) else Err UB
  | None => Err UB
  end.
Definition alloc (h : heap) (ws : list N) : heap * nat := (h ++ [ws], length h).

(** for (i = i0; i < i0 + n; i++) *)
Fixpoint forn (n i : nat) (body : nat -> heap -> res heap) (h : heap) : res heap :=
  match n with O => Ok h | S k => do h' <- body i h; forn k (S i) body h' end.

(** 64-bit operations *)
Definition trunc (w : N) : N := N.land w MAX_ENTRY.
Definition shl (w : N) (n : nat) : N := trunc (N.shiftl w (N.of_nat n)).
Definition shr (w : N) (n : nat) : N := N.shiftr w (N.of_nat n).
Definition bit (i : nat) : N := shl 1 i.
Definition bnot (w : N) : N := N.lxor w MAX_ENTRY.

(** validation.cpp:5-11: a fresh array, all rows valid *)
Definition fresh (n : nat) : list N := repeat MAX_ENTRY n.
(** validation.cpp:23-27 constructor *)
Definition make (h : heap) (size : nat) : heap * mask :=
  let '(h', a) := alloc h (fresh size) in (h', {| mptr := Some a; mcnt := size |}).

(** validation.cpp:13-21: copy of the first [size] words *)
Definition copy_words (h : heap) (a size : nat) : res (list N) :=
  match nth_error h a with
  | Some ws => if size <=? length ws then Ok (firstn size ws) else Err UB
  | None => Err UB
  end.
(** validation.cpp:29-52 copy constructor and assignment *)
Definition copy (h : heap) (m : mask) : res (heap * mask) :=
  match mptr m with
  | None => Ok (h, m)
  | Some a => do ws <- copy_words h a (mcnt m);
              let '(h', b) := alloc h ws in Ok (h', {| mptr := Some b; mcnt := mcnt m |})
  end.

(** validation.cpp:272-294 [resize] *)
Definition resize (h : heap) (m : mask) (new_size : nat) : res (heap * mask) :=
  match mptr m with
  | None => let '(h', a) := alloc h (fresh new_size) in Ok (h', {| mptr := Some a; mcnt := new_size |})
  | Some p =>
    if new_size <=? mcnt m then Ok (h, m)
    else let '(h1, a) := alloc h (fresh new_size) in
         do h2 <- forn (entry_count (mcnt m)) 0 (fun i g => do w <- rdw g p i; wrw g a i w) h1;
         do h3 <- forn (entry_count new_size - entry_count (mcnt m)) (entry_count (mcnt m))
                       (fun i g => wrw g a i MAX_ENTRY) h2;
         Ok (h3, {| mptr := Some a; mcnt := new_size |})
  end.

(** [if (!validity_mask_) resize(resource_, count_)], 72-74, 80-82, 88-90, 193-195 *)
Definition ensure (h : heap) (m : mask) : res (heap * mask) :=
  match mptr m with Some _ => Ok (h, m) | None => resize h m (mcnt m) end.

(** validation.cpp:71-85 [set_invalid] *)
Definition set_invalid (h : heap) (m : mask) (row : nat) : res (heap * mask) :=
  do hm <- ensure h m;
  match mptr (snd hm) with
  | None => Err UB
  | Some a => do w <- rdw (fst hm) a (row / BITS);
              do h' <- wrw (fst hm) a (row / BITS) (N.land w (bnot (bit (row mod BITS))));
              Ok (h', snd hm)
  end.

(** validation.cpp:87-92 [set_valid]: the word with the number of the row is set to 1 *)
Definition set_valid (h : heap) (m : mask) (row : nat) : res (heap * mask) :=
  do hm <- ensure h m;
  match mptr (snd hm) with
  | None => Err UB
  | Some a => do h' <- wrw (fst hm) a row 1; Ok (h', snd hm)
  end.

(** validation.cpp:94-104 [set_all_invalid] *)
Definition set_all_invalid (h : heap) (m : mask) (count : nat) : res heap :=
  if count =? 0 then Ok h else
  match mptr m with
  | None => Err UB
  | Some a =>
    let last := entry_count count - 1 in
    do h1 <- forn last 0 (fun i g => wrw g a i 0) h;
    wrw h1 a last (if count mod BITS =? 0 then 0%N else shl MAX_ENTRY (count mod BITS))
  end.

(** validation.cpp:106-114 [row_is_valid] *)
Definition row_is_valid (h : heap) (m : mask) (row : nat) : res bool :=
  match mptr m with
  | None => Ok true
  | Some a => do w <- rdw h a (row / BITS);
              Ok (negb (N.land w (bit (row mod BITS)) =? 0)%N)
  end.

(** validation.cpp:138-141: the loop clearing the lowest set bit *)
Fixpoint popcount (fuel : nat) (w : N) (acc : N) : res N :=
  if (w =? 0)%N then Ok acc else
  match fuel with O => Err Diverge | S f => popcount f (N.land w (w - 1)) (acc + 1)%N end.

(** validation.cpp:126-129: the ragged last word, the masked word itself is added (modulo 2^64) *)
Fixpoint ragged_sum (n i : nat) (w acc : N) : N :=
  match n with O => acc | S k => ragged_sum k (S i) w (trunc (acc + N.land w (bit i))%N) end.

(** validation.cpp:116-146 [count_valid] *)
Fixpoint count_loop (n i total : nat) (count : nat) (h : heap) (a : nat) (acc : N) : res N :=
  match n with
  | O => Ok acc
  | S k =>
    do w <- rdw h a i;
    if (S i =? total) && negb (count mod BITS =? 0) then Ok (ragged_sum (count mod BITS) 0 w acc)
    else if (w =? MAX_ENTRY)%N then count_loop k (S i) total count h a (acc + 64)%N
    else do acc' <- popcount 64 w acc; count_loop k (S i) total count h a acc'
  end.
Definition count_valid (h : heap) (m : mask) (count : nat) : res N :=
  match mptr m with
  | None => Ok (N.of_nat count)
  | Some a => if count =? 0 then Ok 0%N
              else count_loop (entry_count count) 0 (entry_count count) count h a 0
  end.

(** validation.cpp:148-166 [set] *)
Definition set (h : heap) (m : mask) (row : nat) (v : bool) : res (heap * mask) :=
  if v then
    match mptr m with
    | None => Ok (h, m)
    | Some a => do w <- rdw h a (row / BITS);
                do h' <- wrw h a (row / BITS) (N.lor w (bit (row mod BITS)));
                Ok (h', m)
    end
  else
    let '(h1, a) := match mptr m with Some a => (h, a) | None => alloc h (fresh (mcnt m)) end in
    do w <- rdw h1 a (row / BITS);
    do h' <- wrw h1 a (row / BITS) (N.land w (bnot (bit (row mod BITS))));
    Ok (h', {| mptr := Some a; mcnt := mcnt m |}).

(** a loop of [set], validation.cpp:243-245 and 314-317 *)
Fixpoint set_loop (n i : nat) (h : heap) (m o : mask) (target : nat) (src : nat -> res nat) : res (heap * mask) :=
  match n with
  | O => Ok (h, m)
  | S k => do s <- src i; do v <- row_is_valid h o s; do hm <- set h m (target + i) v;
           set_loop k (S i) (fst hm) (snd hm) o target src
  end.

(** validation.cpp:222-231: whole words with both neighbours; the word read last is kept *)
Fixpoint shift_loop (n : nat) (h : heap) (sa si ta ti tail : nat) (src_entry : N) : res (heap * N) :=
  match n with
  | O => Ok (h, src_entry)
  | S k => do nxt <- rdw h sa (S si);
           do h' <- wrw h ta ti (N.lor (shr src_entry tail) (shl nxt (BITS - tail)));
           shift_loop k h' sa (S si) ta (S ti) tail nxt
  end.

Definition aligned (n : nat) : bool := n mod BITS =? 0.

(** validation.cpp:196-246, the three ways to copy; [ta] is the array of [m] *)
Definition slice_aligned (h : heap) (ta : nat) (o : mask) (toff soff count : nat) : res heap :=
  let ragged := count mod BITS in
  let units := count / BITS in
  let se := entry_count soff in
  let te := entry_count toff in
  do h1 <- match mptr o with
           | None => forn units 0 (fun i g => wrw g ta (te + i) MAX_ENTRY) h
           | Some sa => forn units 0 (fun i g => do w <- rdw g sa (se + i); wrw g ta (te + i) w) h
           end;
  if ragged =? 0 then Ok h1
  else
    do s <- match mptr o with None => Ok MAX_ENTRY | Some sa => rdw h1 sa (se + units) end;
    do t <- rdw h1 ta (te + units);
    wrw h1 ta (te + units)
        (N.lor (N.land t (shl MAX_ENTRY ragged)) (N.land s (shr MAX_ENTRY (BITS - ragged)))).
Definition slice_shifted (h : heap) (ta sa : nat) (toff soff count : nat) : res heap :=
  let ragged := count mod BITS in
  let units := count / BITS in
  let tail := soff mod BITS in
  let head := BITS - tail in
  let si := soff / BITS in
  let ti := toff / BITS in
  do w0 <- rdw h sa si;
  do hw <- shift_loop units h sa si ta ti tail w0;
  if ragged =? 0 then Ok (fst hw)
  else
    let t0 := shr (snd hw) tail in
    do t1 <- (if head <? ragged then do n <- rdw (fst hw) sa (S (si + units)); Ok (N.lor t0 (shl n head)) else Ok t0);
    do old <- rdw (fst hw) ta (ti + units);
    wrw (fst hw) ta (ti + units)
        (N.lor (N.land t1 (shr MAX_ENTRY (BITS - ragged))) (N.land old (shl MAX_ENTRY ragged))).

(** validation.cpp:186-246 [slice_in_place]; the shifted copy forms [null + offset] and reads there when
    the source has no array *)
Definition slice_in_place (h : heap) (m o : mask) (toff soff count : nat) : res (heap * mask) :=
  if (if mptr m then false else true) && (if mptr o then false else true) then Ok (h, m)
  else
    do hm <- ensure h m;
    match mptr (snd hm) with
    | None => Err UB
    | Some ta =>
      if aligned soff && aligned toff then
        do g <- slice_aligned (fst hm) ta o toff soff count; Ok (g, snd hm)
      else if aligned toff then
        match mptr o with
        | None => Err UB
        | Some sa => do g <- slice_shifted (fst hm) ta sa toff soff count; Ok (g, snd hm)
        end
      else set_loop count 0 (fst hm) (snd hm) o toff (fun i => Ok (soff + i))
    end.

(** validation.cpp:168-184 [slice] *)
Definition slice (h : heap) (m o : mask) (offset count : nat) : res (heap * mask) :=
  match mptr o with
  | None => Ok (h, {| mptr := None; mcnt := mcnt m |})
  | Some _ =>
    if offset =? 0 then Ok (h, o)
    else let '(h1, n) := make h count in slice_in_place h1 n o 0 offset count
  end.

(** validation.cpp:247-270 [combine] *)
Definition combine (h : heap) (m o : mask) (count : nat) : res (heap * mask) :=
  match mptr o with
  | None => Ok (h, m)
  | Some b =>
    match mptr m with
    | None => do ws <- copy_words h b (mcnt m);
              let '(h', a) := alloc h ws in Ok (h', {| mptr := Some a; mcnt := mcnt m |})
    | Some a =>
      if a =? b then Ok (h, m)
      else
        do ws <- copy_words h a (mcnt m);
        let '(h1, a') := alloc h ws in
        do h2 <- forn (entry_count count) 0
                      (fun i g => do x <- rdw g a' i; do y <- rdw g b i; wrw g a' i (N.land x y)) h1;
        Ok (h2, {| mptr := Some a'; mcnt := mcnt m |})
    end
  end.

(** validation.cpp:303-318 [copy_indexing]; the selection as in IndexingModel, [None] when not set *)
Definition copy_indexing (h : heap) (m o : mask) (sel : option (list nat)) (soff toff count : nat) : res (heap * mask) :=
  if (if mptr m then false else true) && (if mptr o then false else true) then Ok (h, m)
  else match sel with
       | None => if aligned soff && aligned toff then slice_in_place h m o toff soff count
                 else set_loop count 0 h m o toff (fun i => Ok (soff + i))
       | Some l => set_loop count 0 h m o toff
                     (fun i => match nth_error l (soff + i) with Some x => Ok x | None => Err UB end)
       end.
