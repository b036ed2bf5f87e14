(** Properties C11 (scalars keep type and value) and C12 (typed reads of integers). *)
From Verif Require Import Bytes Outcome TapeModel TapeSpec TapeProofs.
Local Open Scope N_scope.

(** A scalar put into a document, between any other scalars, reads back with its type and value.
    Guards: the tag is not damaged ([tag_safe]) and the string buffer is below 2^56 bytes. *)
Theorem C11_scalar_round_trip_partial :
  forall d l1 j v l2, scalar_ok v -> tag_safe j v -> N.of_nat (length (sbuf (build_all d l1))) < 2 ^ 56 ->
  reads (build_all d (l1 ++ (j, v) :: l2)) (next_element (build_all d l1)) v.
Proof. exact scalar_round_trip. Qed.
Print Assumptions C11_scalar_round_trip_partial.

(** Storing a value never changes what was stored before, with no guard at all. *)
Theorem C11_others_unchanged :
  forall d i v l, reads d i v -> reads (build_all d l) i v.
Proof. intros d i v l. apply reads_ext. apply build_all_ext. Qed.
Print Assumptions C11_others_unchanged.

Definition d0 : doc := {| tape := []; sbuf := [] |}.
Definition demo : list (N * scalar) :=
  [(0, SString (str "key")); (5, SInt I16 (-300)); (0, SInt U64 1000); (0, SInt I128 (- 2 ^ 100)); (77, SFloat 1078530011);
   (0, SDouble 4614256656552045848); (0, SString (str "")); (0, SNull); (0, SBool true); (0, SString (str "value"))].
Example C11_demo : let d := build_all d0 demo in
  get_string d 0 = Ok (Val (str "key")) /\ get_int I16 d 1 = Ok (Val (-300)%Z) /\ get_int U64 d 2 = Ok (Val 1000%Z) /\
  get_int I128 d 4 = Ok (Val (- 2 ^ 100)%Z) /\ get_string d 13 = Ok (Val (str "value")).
Proof. vm_compute. auto. Qed.
Example C11_demo_ok : Forall (fun jv => scalar_ok (snd jv) /\ tag_safe (fst jv) (snd jv)) demo.
Proof. repeat constructor; vm_compute; congruence. Qed.

(** A uint64 of 2^56 or more damages its own tag: 2^56 is read as an int64, 2^57 has no readable type. *)
Theorem C11_uint64_refuted :
  tape_type (build 0 d0 (SInt U64 (2 ^ 56))) 0 = Ok (code I64) /\
  (forall k, get_int k (build 0 d0 (SInt U64 (2 ^ 57))) 0 = Ok INCORRECT_TYPE).
Proof. split; [vm_compute; reflexivity|]. intros []; vm_compute; reflexivity. Qed.
Print Assumptions C11_uint64_refuted.

(** An int8, int16, int32 or float is stored with the bytes of an uninitialised variable; if its top byte
    is not zero the type changes, e.g. an int32 is read as a string. *)
Theorem C11_uninitialised_refuted :
  forall z, (imin I32 <= z <= imax I32)%Z -> tape_type (build (2 ^ 59) d0 (SInt I32 z)) 0 = Ok T_STRING.
Proof.
  intros z H. unfold build, tape_type, word. cbn [tape d0 app nth_error rbind]. f_equal.
  unfold tagged, memcpy_low. change ((code I32 * two56) mod two64) with (7 * two56). change (bits I32) with 32.
  change (2 ^ 59 / 2 ^ 32 * 2 ^ 32) with (8 * 2 ^ 56). rewrite <- (nocarry (pattern I32 z) 8 56).
  - rewrite <- N.lor_assoc. change (N.lor (8 * 2 ^ 56) (7 * two56)) with (15 * 2 ^ 56). rewrite nocarry.
    + change two56 with (2 ^ 56). rewrite N.div_add by discriminate. rewrite N.div_small; [reflexivity|].
      pose proof (pattern_lt I32 z) as P. cbn [bits] in P. eapply N.lt_trans; [exact P|reflexivity].
    + pose proof (pattern_lt I32 z) as P. cbn [bits] in P. eapply N.lt_trans; [exact P|reflexivity].
  - pose proof (pattern_lt I32 z) as P. cbn [bits] in P. eapply N.lt_trans; [exact P|reflexivity].
Qed.
Print Assumptions C11_uninitialised_refuted.

(** Reading a stored integer as another integer type gives the number when the type can hold it and an
    error when it cannot.  Guard: [wraps] does not hold. *)
Theorem C12_typed_read_partial :
  forall d i from z to, reads d i (SInt from z) -> wraps from to z = false ->
  get_int to d i = Ok (if fits to z then Val z else NUMBER_OUT_OF_RANGE).
Proof. exact typed_read. Qed.
Print Assumptions C12_typed_read_partial.

(** The guard is exact: in all other cases another number is returned without an error. *)
Theorem C12_wraps_refuted :
  forall d i from z to, reads d i (SInt from z) -> wraps from to z = true ->
  exists z', get_int to d i = Ok (Val z') /\ z' <> z.
Proof. exact typed_read_wraps. Qed.
Print Assumptions C12_wraps_refuted.

Example C12_demo : let d := build_all d0 [(0, SInt I16 300); (0, SInt I8 (-1)); (0, SInt U8 200); (0, SInt I64 (2 ^ 40))] in
  get_int U8 d 0 = Ok (Val 44%Z) /\ get_int U64 d 1 = Ok (Val (2 ^ 64 - 1)%Z) /\ get_int I8 d 2 = Ok (Val (-56)%Z) /\
  get_int I32 d 3 = Ok NUMBER_OUT_OF_RANGE /\ get_int U64 d 3 = Ok (Val (2 ^ 40)%Z) /\ get_int I64 d 0 = Ok (Val 300%Z) /\
  wraps I16 U8 300 = true /\ wraps I8 U64 (-1) = true /\ wraps U8 I8 200 = true /\ wraps I64 U64 (2 ^ 40) = false.
Proof. vm_compute. repeat split. Qed.
Example C12_demo_reads : reads (build 0 d0 (SInt I16 300)) 0 (SInt I16 300).
Proof. vm_compute. repeat split. Qed.

(** What is not a number is not read as one, and a getter of another type gives an error. *)
Theorem C12_other_types :
  forall d i v, reads d i v -> match v with SInt _ _ | SFloat _ | SDouble _ => False | _ => True end ->
  (forall to, get_int to d i = Ok INCORRECT_TYPE) /\
  (match v with SBool _ => True | _ => get_bool d i = Ok INCORRECT_TYPE end) /\
  (match v with SString _ => True | _ => get_string d i = Ok INCORRECT_TYPE end).
Proof. exact other_types. Qed.
Print Assumptions C12_other_types.
Example C12_other_types_demo : let d := build_all d0 [(0, SString (str "12")); (0, SBool true); (0, SNull)] in
  reads d 0 (SString (str "12")) /\ reads d 1 (SBool true) /\ reads d 2 SNull.
Proof. vm_compute. repeat split. Qed.
