(** Model of document ids: components/oid/oid.hpp with the sizes of
    components/document/document_id.hpp:10-14 (4 + 5 + 3 bytes). *)
From Verif Require Import Bytes ByteOrd.
Local Open Scope N_scope.

Definition oid_size : nat := 12.
(** an id: oid.hpp:105 [data_], 12 bytes *)
Definition oid := list byte.
Definition oid_wf (o : oid) : bool := (length o =? oid_size)%nat.

(** oid.hpp:118-123 [to_char_] (argument 0..15) *)
Definition to_char (v : N) : byte := if v <? 10 then byte_of_N (48 + v) else byte_of_N (97 + v - 10).
(** oid.hpp:125-133 [from_char_], result truncated to uint8 *)
Definition from_char (c : byte) : N :=
  let c := N_of_byte c in
  if (48 <=? c) && (c <=? 57) then c - 48
  else if (97 <=? c) && (c <=? 102) then c + 10 - 97
  else (c + 256 + 10 - 65) mod 256.

(** oid.hpp:206-213 [to_string] *)
Definition to_string (o : oid) : list byte :=
  flat_map (fun b => [to_char (N_of_byte b / 16); to_char (N_of_byte b mod 16)]) o.

(** oid.hpp:254-260 [is_valid]; chars compared as signed, bytes above 127 are never hex digits *)
Definition is_hex (c : byte) : bool :=
  let c := N_of_byte c in
  ((48 <=? c) && (c <=? 57)) || ((97 <=? c) && (c <=? 102)) || ((65 <=? c) && (c <=? 70)).
Definition is_valid (s : list byte) : bool := (length s =? 2 * oid_size)%nat && forallb is_hex s.

(** oid.hpp:264-271 [init]: bytes are built as uint8 *)
Fixpoint pairs (s : list byte) : list byte :=
  match s with
  | a :: b :: r => byte_of_N (from_char a * 16 + from_char b) :: pairs r
  | _ => []
  end.
Definition null_oid : oid := repeat (byte_of_N 0) oid_size.
Definition parse (s : list byte) : oid := if is_valid s then pairs s else null_oid.

(** oid.hpp:189-191, 247-249 [compare], [operator<]: memcmp *)
Definition oid_cmp (a b : oid) : comparison := bcmp a b.

(** oid.hpp:63-67, 75-80, 92-98: timestamp, process random value and a counter incremented before use,
    each written big endian in 4, 5 and 3 bytes; [n] is the counter value after the increment. *)
Definition gen (ts rnd n : N) : oid := be 4 (ts mod 2^32) ++ be 5 rnd ++ be 3 (n mod 2^32).
(** oid.hpp:215-221 [get_timestamp] *)
Definition get_timestamp (o : oid) : N := unbe (firstn 4 o).
(** lower-case copy of an id text: the form in which ids are printed *)
Definition lower (c : byte) : byte :=
  if (65 <=? N_of_byte c) && (N_of_byte c <=? 70) then byte_of_N (N_of_byte c + 32) else c.
