(** MessagePack values and their byte format, as produced by msgpack-cxx 4.1.1 (conanfile.py:15)
    through [msgpack::packer] and read by [msgpack::unpack].
    The library itself is not part of /repo; this file models the published format with the
    smallest-encoding rule of the packer.  Used by services/wal/dto.cpp:61-97 and
    components/document/msgpack/msgpack_encoder.hpp:149-206.
    Simplifications: doubles are carried as their 64 IEEE-754 bits and always written with tag 0xcb
    (msgpack-cxx may write integral doubles as integers); bin and ext objects, which the code never
    writes, are rejected by the reader. *)
From Verif Require Import Bytes.

Inductive mp : Type :=
| MNil
| MBool (b : bool)
| MUint (n : N)                 (* POSITIVE_INTEGER *)
| MNeg (n : N)                  (* NEGATIVE_INTEGER, value -(n+1) *)
| MF32 (bits : N)
| MF64 (bits : N)
| MStr (s : list byte)
| MArr (l : list mp)
| MMap (l : list (mp * mp)).

Local Open Scope N_scope.

Definition enc_uint (n : N) : list byte :=
  if n <? 128 then [byte_of_N n]
  else if n <? 2^8 then byte_of_N 0xcc :: be 1 n
  else if n <? 2^16 then byte_of_N 0xcd :: be 2 n
  else if n <? 2^32 then byte_of_N 0xce :: be 4 n
  else byte_of_N 0xcf :: be 8 n.

(** value -(n+1), two's complement of width w: 2^w - 1 - n *)
Definition enc_neg (n : N) : list byte :=
  if n <? 32 then [byte_of_N (255 - n)]
  else if n <? 2^7 then byte_of_N 0xd0 :: be 1 (2^8 - 1 - n)
  else if n <? 2^15 then byte_of_N 0xd1 :: be 2 (2^16 - 1 - n)
  else if n <? 2^31 then byte_of_N 0xd2 :: be 4 (2^32 - 1 - n)
  else byte_of_N 0xd3 :: be 8 (2^64 - 1 - n).

Definition enc_str_head (n : N) : list byte :=
  if n <? 32 then [byte_of_N (0xa0 + n)]
  else if n <? 2^8 then byte_of_N 0xd9 :: be 1 n
  else if n <? 2^16 then byte_of_N 0xda :: be 2 n
  else byte_of_N 0xdb :: be 4 n.

Definition enc_arr_head (n : N) : list byte :=
  if n <? 16 then [byte_of_N (0x90 + n)]
  else if n <? 2^16 then byte_of_N 0xdc :: be 2 n
  else byte_of_N 0xdd :: be 4 n.

Definition enc_map_head (n : N) : list byte :=
  if n <? 16 then [byte_of_N (0x80 + n)]
  else if n <? 2^16 then byte_of_N 0xde :: be 2 n
  else byte_of_N 0xdf :: be 4 n.

Fixpoint enc (v : mp) : list byte :=
  match v with
  | MNil => [byte_of_N 0xc0]
  | MBool false => [byte_of_N 0xc2]
  | MBool true => [byte_of_N 0xc3]
  | MUint n => enc_uint n
  | MNeg n => enc_neg n
  | MF32 b => byte_of_N 0xca :: be 4 b
  | MF64 b => byte_of_N 0xcb :: be 8 b
  | MStr s => enc_str_head (N.of_nat (List.length s)) ++ s
  | MArr l => enc_arr_head (N.of_nat (List.length l)) ++ flat_map enc l
  | MMap l => enc_map_head (N.of_nat (List.length l)) ++ flat_map (fun kv => enc (fst kv) ++ enc (snd kv)) l
  end.

(** Values the packer can be given: widths and lengths within the format. *)
Fixpoint wf (v : mp) : bool :=
  match v with
  | MNil | MBool _ => true
  | MUint n => n <? 2^64
  | MNeg n => n <? 2^63
  | MF32 b => b <? 2^32
  | MF64 b => b <? 2^64
  | MStr s => N.of_nat (List.length s) <? 2^32
  | MArr l => (N.of_nat (List.length l) <? 2^32) && forallb wf l
  | MMap l => (N.of_nat (List.length l) <? 2^32) && forallb (fun kv => wf (fst kv) && wf (snd kv)) l
  end.

Definition take_be (k : nat) (l : list byte) : option (N * list byte) :=
  match take k l with Some (a, r) => Some (unbe a, r) | None => None end.

(** signed integer of [w] bits read as unsigned [n] *)
Definition mk_int (w : N) (n : N) : mp := if n <? 2^(w-1) then MUint n else MNeg (2^w - 1 - n).

Definition take_str (n : N) (l : list byte) : option (mp * list byte) :=
  if N.of_nat (List.length l) <? n then None
  else match take (N.to_nat n) l with Some (a, r) => Some (MStr a, r) | None => None end.

Section Lists.
  Variable dec : list byte -> option (mp * list byte).
  Fixpoint dec_list (g : nat) (n : N) (l : list byte) : option (list mp * list byte) :=
    if n =? 0 then Some ([], l) else
    match g with
    | O => None
    | S g' =>
      match dec l with
      | None => None
      | Some (v, r) => match dec_list g' (n - 1) r with
                       | None => None
                       | Some (vs, r') => Some (v :: vs, r')
                       end
      end
    end.
  Fixpoint dec_pairs (g : nat) (n : N) (l : list byte) : option (list (mp * mp) * list byte) :=
    if n =? 0 then Some ([], l) else
    match g with
    | O => None
    | S g' =>
      match dec l with
      | None => None
      | Some (k, r) =>
        match dec r with
        | None => None
        | Some (v, r1) => match dec_pairs g' (n - 1) r1 with
                          | None => None
                          | Some (vs, r') => Some ((k, v) :: vs, r')
                          end
        end
      end
    end.
End Lists.

(** [msgpack::unpack]: parses one object from the front; [None] stands for the exceptions
    [insufficient_bytes] and [parse_error]. The number of list elements is bounded by the number of
    remaining bytes because every element takes at least one byte. *)
Fixpoint dec (fuel : nat) (l : list byte) : option (mp * list byte) :=
  match fuel with
  | O => None
  | S f =>
    match l with
    | [] => None
    | b :: r =>
      let t := N_of_byte b in
      let arr n r := match dec_list (dec f) (List.length r) n r with
                     | Some (vs, r') => Some (MArr vs, r') | None => None end in
      let map n r := match dec_pairs (dec f) (List.length r) n r with
                     | Some (vs, r') => Some (MMap vs, r') | None => None end in
      let sized {A} k (g : N -> list byte -> option A) :=
          match take_be k r with Some (n, r') => g n r' | None => None end in
      if t <? 0x80 then Some (MUint t, r)
      else if t <? 0x90 then map (t - 0x80) r
      else if t <? 0xa0 then arr (t - 0x90) r
      else if t <? 0xc0 then take_str (t - 0xa0) r
      else if t =? 0xc0 then Some (MNil, r)
      else if t =? 0xc2 then Some (MBool false, r)
      else if t =? 0xc3 then Some (MBool true, r)
      else if t =? 0xca then sized 4%nat (fun n r' => Some (MF32 n, r'))
      else if t =? 0xcb then sized 8%nat (fun n r' => Some (MF64 n, r'))
      else if t =? 0xcc then sized 1%nat (fun n r' => Some (MUint n, r'))
      else if t =? 0xcd then sized 2%nat (fun n r' => Some (MUint n, r'))
      else if t =? 0xce then sized 4%nat (fun n r' => Some (MUint n, r'))
      else if t =? 0xcf then sized 8%nat (fun n r' => Some (MUint n, r'))
      else if t =? 0xd0 then sized 1%nat (fun n r' => Some (mk_int 8 n, r'))
      else if t =? 0xd1 then sized 2%nat (fun n r' => Some (mk_int 16 n, r'))
      else if t =? 0xd2 then sized 4%nat (fun n r' => Some (mk_int 32 n, r'))
      else if t =? 0xd3 then sized 8%nat (fun n r' => Some (mk_int 64 n, r'))
      else if t =? 0xd9 then sized 1%nat take_str
      else if t =? 0xda then sized 2%nat take_str
      else if t =? 0xdb then sized 4%nat take_str
      else if t =? 0xdc then sized 2%nat arr
      else if t =? 0xdd then sized 4%nat arr
      else if t =? 0xde then sized 2%nat map
      else if t =? 0xdf then sized 4%nat map
      else if t <? 0xe0 then None
      else Some (MNeg (255 - t), r)
    end
  end.

Definition unpack (l : list byte) : option (mp * list byte) := dec (S (List.length l)) l.
