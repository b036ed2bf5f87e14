(** The buffer manager of tables: components/table/storage/buffer_pool.cpp, block_handle.cpp, standard_buffer_manager.cpp.
    Simplifications: one thread.  Of the counters of memory only the total is kept.  Asserts are off.  A buffer has a
    content, which is written and read as a whole, and an allocation size; header and sectors are in the size only.
    How often [purge] (buffer_pool.cpp 47-80) repeats its iteration is left open.  Sums stay below 2^63. *)
From Coq Require Import List ZArith NArith Bool.
From Verif Require Import Bytes Outcome.
Import ListNotations.
Local Open Scope Z_scope.

(** [file_buffer_type] (file_buffer.hpp 12-17): blocks of a file, memory of at least a block, smaller memory. *)
Inductive kind := File | Managed | Tiny.
Definition kind_eqb (a b : kind) : bool :=
  match a, b with File, File | Managed, Managed | Tiny, Tiny => true | _, _ => false end.

(** [block_handle_t] (block_handle.hpp 146-160).  [data] is [buffer_] and [state_]; [size] is [memory_usage_] and the
    allocation size of the buffer; [stored] is what the file has for a block of it. *)
Record handle := { hid : nat; hkind : kind; data : option (list byte); size : N; readers : Z; seq : N; charge : N;
                   stored : list byte }.
Definition loaded (h : handle) : bool := match data h with Some _ => true | None => false end.
(** [can_unload] (block_handle.cpp 194-202). *)
Definition can_unload (h : handle) : bool := loaded h && negb (0 <? readers h).

(** A node of an eviction queue (buffer_pool.hpp 13-22): the handle, a weak pointer, and its sequence number. *)
Notation node := (nat * N)%type (only parsing).

(** The pool and the manager.  Eight queues (buffer_pool.cpp 147-158): one for blocks, six for managed buffers, one for
    tiny ones.  [used] and [cached] are the total and the part of it that the cache of the thread has. *)
Record pool := { handles : list handle; next : nat; queues : list (list (nat * N)); used : Z; cached : Z; maximum : N }.
Definition pool0 (limit : N) : pool :=
  {| handles := []; next := 0; queues := [[]; []; []; []; []; []; []; []]; used := 0; cached := 0; maximum := limit |}.

(** [update_used_memory] (buffer_pool.cpp 330-349) for the total. *)
Definition threshold : Z := 32768.
Definition charge_memory (u c size : Z) : Z * Z :=
  if Z.abs size <? threshold then
    let c' := c + size in if threshold <=? Z.abs c' then (u + c', 0) else (u, c')
  else (u + size, c).
Definition add_memory (p : pool) (n : Z) : pool :=
  let '(u, c) := charge_memory (used p) (cached p) n in
  {| handles := handles p; next := next p; queues := queues p; used := u; cached := c; maximum := maximum p |}.
(** [used_memory(NO_FLUSH)] (buffer_pool.hpp 137-140). *)
Definition within (p : pool) (limit : N) : bool := Z.max 0 (used p) <=? Z.of_N limit.

Definition get (i : nat) (hs : list handle) : option handle := List.find (fun h => Nat.eqb (hid h) i) hs.
Definition on (i : nat) (f : handle -> handle) (hs : list handle) : list handle :=
  map (fun h => if Nat.eqb (hid h) i then f h else h) hs.
Definition set_handles (p : pool) (hs : list handle) : pool :=
  {| handles := hs; next := next p; queues := queues p; used := used p; cached := cached p; maximum := maximum p |}.
Definition set_queues (p : pool) (qs : list (list (nat * N))) : pool :=
  {| handles := handles p; next := next p; queues := qs; used := used p; cached := cached p; maximum := maximum p |}.

(** [try_get_block_handle] (buffer_pool.cpp 21-30). *)
Definition try_get (hs : list handle) (n : nat * N) : option handle :=
  match get (fst n) hs with
  | Some h => if (N.eqb (seq h) (snd n)) && can_unload h then Some h else None
  | None => None
  end.

(** [unload_and_take_block] (block_handle.cpp 177-187): the content is gone with the buffer. *)
Definition emptied (h : handle) : handle :=
  {| hid := hid h; hkind := hkind h; data := None; size := size h; readers := readers h; seq := seq h; charge := 0;
     stored := stored h |}.
Definition unload (p : pool) (h : handle) : pool :=
  set_handles (add_memory p (- Z.of_N (charge h))) (on (hid h) emptied (handles p)).

(** [iterate_unloadable_blocks] (buffer_pool.cpp 113-141) with the function of [evict_blocks_internal] (218-235):
    whether it was found, the buffer to be used again, what is left of the queue, the pool.  [reuse]: a buffer of [extra]
    bytes is wanted. *)
Fixpoint evict_queue (q : list (nat * N)) (p : pool) (reuse : bool) (extra limit : N)
    : bool * option (list byte) * list (nat * N) * pool :=
  match q with
  | [] => (false, None, [], p)
  | n :: r =>
    match try_get (handles p) n with
    | None => evict_queue r p reuse extra limit
    | Some h =>
      let p' := unload p h in
      if reuse && N.eqb (size h) extra then (true, data h, r, p')
      else if within p' limit then (true, None, r, p')
      else evict_queue r p' reuse extra limit
    end
  end.
(** [evict_blocks] and [evict_blocks_internal] (192-242).  After a success the memory is reserved. *)
Fixpoint evict (qs : list (list (nat * N))) (p : pool) (reuse : bool) (extra limit : N)
    : bool * option (list byte) * list (list (nat * N)) * pool :=
  match qs with
  | [] => (false, None, [], p)
  | q :: rest =>
    let p1 := add_memory p (Z.of_N extra) in
    if within p1 limit then (true, None, qs, p1)
    else
      let '(found, buf, q', p2) := evict_queue q p1 reuse extra limit in
      if found then (true, buf, q' :: rest, p2)
      else
        let '(ok, buf, rest', p3) := evict rest (add_memory p2 (- Z.of_N extra)) reuse extra limit in
        (ok, buf, q' :: rest', p3)
  end.
(** [evict_blocks_or_throw] (standard_buffer_manager.cpp 48-57); [None] is the exception. *)
Definition obtain (p : pool) (reuse : bool) (extra limit : N) : option (option (list byte)) * pool :=
  let '(ok, buf, qs, p') := evict (queues p) p reuse extra limit in
  (if ok then Some buf else None, set_queues p' qs).

(** A new handle with a reservation of its size. *)
Definition new_handle (p : pool) (h : handle) : pool :=
  {| handles := handles p ++ [h]; next := S (next p); queues := queues p; used := used p; cached := cached p;
     maximum := maximum p |}.
(** [register_small_memory] (standard_buffer_manager.cpp 71-85). *)
Definition register_small (p : pool) (n : N) : option nat * pool :=
  match obtain p false n (maximum p) with
  | (None, p') => (None, p')
  | (Some _, p') =>
    (Some (next p'), new_handle p' {| hid := next p'; hkind := Tiny; data := Some []; size := n; readers := 0; seq := 0;
                                     charge := n; stored := [] |})
  end.
(** [allocation_size] (buffer_manager.hpp 66-68, file_buffer.cpp 59-70). *)
Definition allocation_size (n : N) : N := ((8 + n + 4095) / 4096 * 4096)%N.
(** [allocate] (106-109): [register_memory] (87-104), then [pin], which finds the buffer loaded. *)
Definition allocate (p : pool) (n : N) : option nat * pool :=
  let a := allocation_size n in
  match obtain p true a (maximum p) with
  | (None, p') => (None, p')
  | (Some buf, p') =>
    (Some (next p'),
     new_handle p' {| hid := next p'; hkind := Managed; data := Some (match buf with Some d => d | None => [] end);
                      size := a; readers := 1; seq := 0; charge := a; stored := [] |})
  end.
(** A block of a file, not loaded (block_handle.cpp 42-57). *)
Definition block_alloc : N := 262144.
Definition register_block (p : pool) (content : list byte) : nat * pool :=
  (next p, new_handle p {| hid := next p; hkind := File; data := None; size := block_alloc; readers := 0; seq := 0;
                           charge := 0; stored := content |}).

(** [pin] (standard_buffer_manager.cpp 200-238) with [load] (block_handle.cpp 158-175): what is not a block of a file
    cannot be loaded, and the size of the missing buffer is asked for.  [false] is the exception. *)
Definition more_readers (h : handle) : handle :=
  {| hid := hid h; hkind := hkind h; data := data h; size := size h; readers := readers h + 1; seq := seq h;
     charge := charge h; stored := stored h |}.
Definition from_file (h : handle) : handle :=
  {| hid := hid h; hkind := hkind h; data := Some (stored h); size := size h; readers := 1; seq := seq h;
     charge := size h; stored := stored h |}.
Definition pin (p : pool) (i : nat) : res (bool * pool) :=
  match get i (handles p) with
  | None => Err UB
  | Some h =>
    if loaded h then Ok (true, set_handles p (on i more_readers (handles p)))
    else
      match obtain p true (size h) (maximum p) with
      | (None, p') => Ok (false, p')
      | (Some _, p') =>
        match hkind h with
        | File => Ok (true, set_handles p' (on i from_file (handles p')))
        | _ => Err UB
        end
      end
  end.

(** [purge_iteration] (buffer_pool.cpp 82-111) on one queue, [n] times. *)
Definition purge_size : nat := N.to_nat 8192.
Fixpoint purge (hs : list handle) (n : nat) (q : list (nat * N)) : list (nat * N) :=
  match n with
  | O => q
  | S m =>
    purge hs m (skipn purge_size q ++
                filter (fun x => match try_get hs x with Some _ => true | None => false end) (firstn purge_size q))
  end.
Fixpoint at_queue (n : nat) (f : list (nat * N) -> list (nat * N)) (qs : list (list (nat * N))) : list (list (nat * N)) :=
  match qs, n with
  | [], _ => []
  | q :: r, O => f q :: r
  | q :: r, S m => q :: at_queue m f r
  end.
(** [eviction_queue_for_handle] (293-313): no handle has an [eviction_queue_idx_]. *)
Definition queue_of (k : kind) : nat := match k with File => 0 | Managed => 1 | Tiny => 7 end.
Definition fewer_readers (h : handle) : handle :=
  {| hid := hid h; hkind := hkind h; data := data h; size := size h; readers := readers h - 1;
     seq := if readers h - 1 =? 0 then (seq h + 1)%N else seq h; charge := charge h; stored := stored h |}.
(** [unpin] (246-267) with [add_to_eviction_queue] (buffer_pool.cpp 275-291); [destroy_condition_] is never UNPIN. *)
Definition unpin (p : pool) (i purges : nat) : res pool :=
  match get i (handles p) with
  | None => Err UB
  | Some h =>
    if negb (loaded h) || kind_eqb (hkind h) Tiny then Ok p
    else
      let h' := fewer_readers h in
      let p' := set_handles p (on i fewer_readers (handles p)) in
      if readers h' =? 0
      then Ok (set_queues p' (at_queue (queue_of (hkind h))
                                (fun q => purge (handles p') purges (q ++ [(i, seq h')])) (queues p)))
      else Ok p'
  end.

(** The content through a pinned buffer. *)
Definition written (d : list byte) (h : handle) : handle :=
  {| hid := hid h; hkind := hkind h; data := Some d; size := size h; readers := readers h; seq := seq h;
     charge := charge h; stored := stored h |}.
Definition write (p : pool) (i : nat) (d : list byte) : res pool :=
  match get i (handles p) with
  | Some h => if loaded h then Ok (set_handles p (on i (written d) (handles p))) else Err UB
  | None => Err UB
  end.
Definition read (p : pool) (i : nat) : res (list byte) :=
  match get i (handles p) with
  | Some h => match data h with Some d => Ok d | None => Err UB end
  | None => Err UB
  end.
(** The destructor (block_handle.cpp 82-99). *)
Definition release (p : pool) (i : nat) : res pool :=
  match get i (handles p) with
  | Some h =>
    let p' := if loaded h then add_memory p (- Z.of_N (charge h)) else p in
    Ok (set_handles p' (filter (fun x => negb (Nat.eqb (hid x) i)) (handles p)))
  | None => Err UB
  end.
(** [set_limit] (buffer_pool.cpp 161-174); the second [evict_blocks] has nothing to do. *)
Definition set_limit (p : pool) (l : N) : bool * pool :=
  match obtain p false 0 l with
  | (None, p') => (false, p')
  | (Some _, p') =>
    (true, {| handles := handles p'; next := next p'; queues := queues p'; used := used p'; cached := cached p'; maximum := l |})
  end.
(** [reserve_memory] and [free_reserved_memory] (283-296). *)
Definition reserve (p : pool) (n : N) : bool * pool :=
  if N.eqb n 0 then (true, p)
  else match obtain p false n (maximum p) with (None, p') => (false, p') | (Some _, p') => (true, p') end.
Definition free (p : pool) (n : N) : pool := if N.eqb n 0 then p else add_memory p (- Z.of_N n).
(** [used_memory()] (buffer_pool.cpp 186, buffer_pool.hpp 141-146). *)
Definition used_memory (p : pool) : Z * pool :=
  (Z.max 0 (used p + cached p),
   {| handles := handles p; next := next p; queues := queues p; used := used p + cached p; cached := 0; maximum := maximum p |}).

(** The calls. *)
Inductive op :=
| Small (n : N) | Allocate (n : N) | Block (content : list byte)
| Pin (i : nat) | Unpin (i purges : nat) | Write (i : nat) (d : list byte) | Read (i : nat) | Release (i : nat)
| Limit (l : N) | Reserve (n : N) | Free (n : N) | Used.
Inductive out := Done | Id (i : nat) | Bytes (d : list byte) | Memory (z : Z) | OutOfMemory.
Definition made (r : option nat * pool) : out * pool := match r with (Some i, p) => (Id i, p) | (None, p) => (OutOfMemory, p) end.
Definition said (r : bool * pool) : out * pool := match r with (true, p) => (Done, p) | (false, p) => (OutOfMemory, p) end.
Definition step (p : pool) (o : op) : res (out * pool) :=
  match o with
  | Small n => Ok (made (register_small p n))
  | Allocate n => Ok (made (allocate p n))
  | Block c => let '(i, p') := register_block p c in Ok (Id i, p')
  | Pin i => do r <- pin p i; Ok (said r)
  | Unpin i k => do p' <- unpin p i k; Ok (Done, p')
  | Write i d => do p' <- write p i d; Ok (Done, p')
  | Read i => do d <- read p i; Ok (Bytes d, p)
  | Release i => do p' <- release p i; Ok (Done, p')
  | Limit l => Ok (said (set_limit p l))
  | Reserve n => Ok (said (reserve p n))
  | Free n => Ok (Done, free p n)
  | Used => let '(z, p') := used_memory p in Ok (Memory z, p')
  end.
Fixpoint run (p : pool) (ops : list op) : res (list out * pool) :=
  match ops with
  | [] => Ok ([], p)
  | o :: r => do '(x, p1) <- step p o; do '(xs, p2) <- run p1 r; Ok (x :: xs, p2)
  end.
