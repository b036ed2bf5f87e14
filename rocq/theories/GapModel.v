(** Model of gap_tracker_t (core/b_plus_tree/segment_tree.hpp:15-69) and of the file layer of
    segment_tree_t (segment_tree.cpp: close_gaps_ 957-975, flush 726-749, lazy_load 785-810,
    load_segment_ 862-880).  Offsets and sizes are N: the tracker never forms a number above the
    end of the space it was initialised with. *)
From Verif Require Import Bytes Outcome.
Local Open Scope N_scope.

(** block.hpp:19 *)
Definition INVALID_SIZE : N := 2 ^ 32 - 1.

(** gap_t: offset, size *)
Notation range := (N * N)%type (only parsing).

(** segment_tree.hpp:22-26 [init] *)
Definition gt_init (lo hi : N) : list range := [(lo, hi - lo)].

(** segment_tree.hpp:27-43 [find_gap]: first fit.  [None] is the assertion failure; with NDEBUG the
    function then returns INVALID_SIZE and changes nothing. *)
Fixpoint find_gap (n : N) (g : list range) : option (N * list range) :=
  match g with
  | [] => None
  | (o, s) :: r =>
    if n <=? s then Some (o, if s =? n then r else (o + n, s - n) :: r)
    else match find_gap n r with Some (x, r') => Some (x, (o, s) :: r') | None => None end
  end.
Definition find_gap_ndebug (n : N) (g : list range) : N * list range :=
  match find_gap n g with Some x => x | None => (INVALID_SIZE, g) end.

(** segment_tree.hpp:44-53: insertion before the first gap with a larger offset *)
Fixpoint insert_gap (x : range) (g : list range) : list range :=
  match g with
  | [] => [x]
  | y :: r => if fst x <? fst y then x :: y :: r else y :: insert_gap x r
  end.

(** segment_tree.hpp:55-64 [clean_gaps]: the loop over i; [cur] is the element at i, [r] those after it *)
Fixpoint clean_from (cur : range) (r : list range) : list range :=
  match r with
  | [] => [cur]
  | y :: r' => if fst cur + snd cur =? fst y then clean_from (fst cur, snd cur + snd y) r'
               else cur :: clean_from y r'
  end.
(** for an empty vector [size() - 1] wraps and the loop reads outside it *)
Definition clean_gaps (g : list range) : res (list range) :=
  match g with [] => Err UB | x :: r => Ok (clean_from x r) end.

(** segment_tree.hpp:44-54 [remove_gap] *)
Definition remove_gap (x : range) (g : list range) : res (list range) := clean_gaps (insert_gap x g).

(** A client of the tracker: it asks for space and gives back ranges it holds. *)
Inductive gop := Alloc (n : N) | Free (i : nat).
Record gstate := { held : list range; gaps : list range }.
Fixpoint drop_nth {A} (i : nat) (l : list A) : list A :=
  match i, l with O, _ :: r => r | S i', x :: r => x :: drop_nth i' r | _, [] => [] end.
Definition gstep (s : gstate) (op : gop) : res gstate :=
  match op with
  | Alloc n => match find_gap n (gaps s) with
               | Some (o, g) => Ok {| held := (o, n) :: held s; gaps := g |}
               | None => Ok s
               end
  | Free i => match nth_error (held s) i with
              | Some x => do g <- remove_gap x (gaps s); Ok {| held := drop_nth i (held s); gaps := g |}
              | None => Ok s
              end
  end.
Fixpoint grun (s : gstate) (ops : list gop) : res gstate :=
  match ops with [] => Ok s | op :: r => do t <- gstep s op; grun t r end.

(** ** File layer *)
(** A segment: its place in the file, the block in memory if loaded, the modified flag.  The content of
    a block is a byte string of exactly [size] bytes. *)
Record seg := { soff : N; ssize : N; sblock : option (list byte); smod : bool }.

(** segment_tree.cpp:957-975 [close_gaps_] after clean_gaps: while there is more than one gap, the
    blocks above the first gap and the later gaps move down by its size, the last gap grows by it. *)
Definition move_seg (o s : N) (b : seg) : seg :=
  if o <? soff b then {| soff := soff b - s; ssize := ssize b; sblock := sblock b; smod := true |} else b.
Fixpoint grow_last (s : N) (g : list range) : list range :=
  match g with [] => [] | [(o, n)] => [(o, n + s)] | x :: r => x :: grow_last s r end.
Fixpoint close_loop (fuel : nat) (g : list range) (segs : list seg) : list range * list seg :=
  match fuel, g with
  | S f, (o, s) :: ((_ :: _) as r) =>
      close_loop f (grow_last s (map (fun x => (fst x - s, snd x)) r)) (map (move_seg o s) segs)
  | _, _ => (g, segs)
  end.

(** The file: the header with the place of every segment, and the bytes (positions are absolute). *)
Record sfile := { dir : list range; bytes : list byte }.
Definition zeros (n : nat) : list byte := repeat (byte_of_N 0) n.
Definition pad_to (n : nat) (f : list byte) : list byte := f ++ zeros (n - length f).
Definition fwrite (off : nat) (d f : list byte) : list byte :=
  firstn off (pad_to off f) ++ d ++ skipn (off + length d) f.
Definition fread (off n : nat) (f : list byte) : list byte := firstn n (skipn off f).
Definition ftruncate (n : nat) (f : list byte) : list byte := firstn n (pad_to n f).

Record sstore := { file : sfile; segs : list seg; sgaps : list range }.

(** segment_tree.cpp:733-745: blocks that are loaded and modified are written at their place *)
Fixpoint write_segs (l : list seg) (f : list byte) : list byte :=
  match l with
  | [] => f
  | b :: r => write_segs r (match sblock b with
                            | Some d => if smod b then fwrite (N.to_nat (soff b)) d f else f
                            | None => f
                            end)
  end.
Definition place (b : seg) : range := (soff b, ssize b).
Definition clear_mod (b : seg) : seg :=
  match sblock b with
  | Some d => {| soff := soff b; ssize := ssize b; sblock := Some d; smod := false |}
  | None => b
  end.

(** segment_tree.cpp:726-749 [flush]; [front()] of an empty vector is undefined *)
Definition flush (st : sstore) : res sstore :=
  do g <- clean_gaps (sgaps st);
  let '(g', sg) := close_loop (length g) g (segs st) in
  let f := write_segs sg (bytes (file st)) in
  match g' with
  | [] => Err UB
  | (o, _) :: _ =>
    Ok {| file := {| dir := map place sg; bytes := ftruncate (N.to_nat o) f |};
          segs := map clear_mod sg; sgaps := g' |}
  end.

(** segment_tree.cpp:785-810 [lazy_load]: places from the header, nothing loaded *)
Definition lazy_load (hi : N) (f : sfile) : sstore :=
  {| file := f;
     segs := map (fun p => {| soff := fst p; ssize := snd p; sblock := None; smod := false |}) (dir f);
     sgaps := gt_init (N.of_nat (length (bytes f))) hi |}.

(** what a reader of the block sees: the loaded block, or what load_segment_ (862-880) reads *)
Definition content (f : list byte) (b : seg) : list byte :=
  match sblock b with Some d => d | None => fread (N.to_nat (soff b)) (N.to_nat (ssize b)) f end.

(** remove_segment_ (926-937): the space is given back, the segment disappears *)
Definition remove_segment (i : nat) (st : sstore) : res sstore :=
  match nth_error (segs st) i with
  | None => Err UB
  | Some b => do g <- remove_gap (place b) (sgaps st);
              Ok {| file := file st; segs := drop_nth i (segs st); sgaps := g |}
  end.

(** The same client on a build with NDEBUG: the returned offset is used whatever it is. *)
Fixpoint grun_ndebug (s : gstate) (ops : list gop) : res gstate :=
  match ops with
  | [] => Ok s
  | Alloc n :: r => let '(o, g) := find_gap_ndebug n (gaps s) in grun_ndebug {| held := (o, n) :: held s; gaps := g |} r
  | Free i :: r => do t <- gstep s (Free i); grun_ndebug t r
  end.
