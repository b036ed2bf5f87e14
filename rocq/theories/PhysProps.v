(** The order of index keys (C45). *)
From Verif Require Import Bytes ByteOrd PhysModel PhysSpec PhysProofs.
From Coq Require Import ZArith QArith Lia.
Local Open Scope Z_scope.

(** [operator<] orders by meaning: booleans, then numbers by value whatever their types, then strings byte by byte,
    then NULL.  Proved for sets of values in which no integer is rounded by a conversion (see [exact]). *)
Theorem C45_by_meaning_partial : forall r a b, exact r a -> exact r b ->
  (less a b = true <-> before (means a) (means b)).
Proof. exact less_before. Qed.
Print Assumptions C45_by_meaning_partial.

(** C45: a strict weak order with an agreeing equality.  Proved for the same sets; missing: large integers together with
    floating point numbers, and NaN (both refuted below). *)
Theorem C45_order_partial : forall r, strict_weak_order (exact r) less equal.
Proof. exact exact_order. Qed.
Print Assumptions C45_order_partial.

Example C45_order_example :
  exact NoFloats (PInt U64 (2 ^ 64 - 1)) /\ exact NoFloats (PInt I64 (-1)) /\ exact NoFloats (PInt I8 5) /\
  less (PInt I64 (-1)) (PInt I8 5) = true /\ less (PInt I8 5) (PInt U64 (2 ^ 64 - 1)) = true /\
  exact AllFloats (PDouble (Fin 5 (-1))) /\ exact AllFloats (PFloat (Fin 1 1)) /\ exact AllFloats (PInt U8 3) /\
  less (PFloat (Fin 1 1)) (PDouble (Fin 5 (-1))) = true /\ less (PDouble (Fin 5 (-1))) (PInt U8 3) = true /\
  equal (PFloat (Fin 3 0)) (PInt U8 3) = true /\ less (PDouble (Inf false)) (PStr (str "")) = true.
Proof. repeat split; try reflexivity; try (vm_compute; congruence); intros H; discriminate H. Qed.

(** Every value: not less than itself; the other operators are consistent with [operator<]. *)
Theorem C45_irreflexive : forall a, less a a = false.
Proof. exact less_irrefl. Qed.
Print Assumptions C45_irreflexive.

Theorem C45_equality_agrees : forall a b, equal a b = true <-> less a b = false /\ less b a = false.
Proof. exact equal_spec. Qed.
Print Assumptions C45_equality_agrees.

(** Integers of any size together with doubles (without NaN): [operator<] is still transitive. *)
Theorem C45_transitive_partial : forall a b c, no_floats32 a -> no_floats32 b -> no_floats32 c ->
  less a b = true -> less b c = true -> less a c = true.
Proof. exact mixed_trans. Qed.
Print Assumptions C45_transitive_partial.

Example C45_transitive_example :
  no_floats32 (PInt I64 (2 ^ 60 + 1)) /\ no_floats32 (PDouble (Fin (2 ^ 52 + 1) 8)) /\ no_floats32 (PInt U64 (2 ^ 60 + 1000)) /\
  less (PInt I64 (2 ^ 60 + 1)) (PDouble (Fin (2 ^ 52 + 1) 8)) = true /\
  less (PDouble (Fin (2 ^ 52 + 1) 8)) (PInt U64 (2 ^ 60 + 1000)) = true.
Proof. repeat split; try reflexivity; try (vm_compute; congruence); intros H; discriminate H. Qed.

(** But equality is not: 2^53 and 2^53 + 1 are different integers, both equal to the double 2^53. *)
Theorem C45_equality_refuted : exists a b c, no_floats32 a /\ no_floats32 b /\ no_floats32 c /\
  equal a b = true /\ equal b c = true /\ less a c = true.
Proof.
  exists (PInt I64 (2 ^ 53)), (PDouble (Fin 1 53)), (PInt I64 (2 ^ 53 + 1)).
  repeat split; try reflexivity; try (vm_compute; congruence); intros H; discriminate H.
Qed.
Print Assumptions C45_equality_refuted.

(** With both floating point types [operator<] itself is not transitive: 2^24+3 < 2^24+3.5 (double) < 2^24+4 (float), but
    the first equals the third. *)
Theorem C45_transitive_refuted : exists a b c,
  less a b = true /\ less b c = true /\ less a c = false /\ equal a c = true.
Proof.
  exists (PInt I32 (2 ^ 24 + 3)), (PDouble (Fin (2 ^ 25 + 7) (-1))), (PFloat (Fin (2 ^ 22 + 1) 2)).
  repeat split; reflexivity.
Qed.
Print Assumptions C45_transitive_refuted.

(** NaN is equal to every number. *)
Theorem C45_nan_refuted : exists a b, equal a (PDouble Nan) = true /\ equal (PDouble Nan) b = true /\ less a b = true.
Proof. exists (PInt I8 1), (PInt I8 2). repeat split; reflexivity. Qed.
Print Assumptions C45_nan_refuted.
