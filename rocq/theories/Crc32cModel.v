(** CRC-32C as computed by [absl::ComputeCrc32c] (called in services/wal/dto.cpp:54 and
    services/wal/wal.cpp:399, and core/b_plus_tree/block.cpp:638-643).
    absl is third-party; this is the published Castagnoli definition: reflected polynomial
    0x82F63B78, initial value and final xor 0xFFFFFFFF. *)
From Verif Require Import Bytes.
Local Open Scope N_scope.

Definition POLY : N := 0x82F63B78.
Definition crc_shift (c : N) : N := N.lxor (N.div2 c) (if N.odd c then POLY else 0).
Definition crc_byte (c : N) (b : byte) : N := Nat.iter 8 crc_shift (N.lxor c (N_of_byte b)).
Definition crc32c (l : list byte) : N := N.lxor (fold_left crc_byte l 0xFFFFFFFF) 0xFFFFFFFF.
