(** Properties C47 and C52: document ids. *)
From Verif Require Import Bytes ByteOrd OidModel OidProofs.
Local Open Scope N_scope.

(** C47.  Printing and parsing an id gives it back. *)
Theorem C47_id_text_round_trip :
  forall o, oid_wf o = true -> is_valid (to_string o) = true /\ parse (to_string o) = o.
Proof. exact parse_to_string. Qed.
Print Assumptions C47_id_text_round_trip.

(** Ids are ordered as their texts. *)
Theorem C47_id_order_is_text_order :
  forall a b, length a = length b -> bcmp (to_string a) (to_string b) = oid_cmp a b.
Proof. exact to_string_cmp. Qed.
Print Assumptions C47_id_order_is_text_order.

(** Any text: parsing gives an id; valid text (24 hexadecimal digits of either case) prints back as
    its lower-case form, anything else gives the null id. *)
Theorem C47_parse_any_text :
  forall s, oid_wf (parse s) = true /\
  (is_valid s = true -> to_string (parse s) = map lower s) /\
  (is_valid s = false -> parse s = null_oid).
Proof. exact parse_text. Qed.
Print Assumptions C47_parse_any_text.

Example C47_case :
  to_string (parse (str "00112233445566778899AAff")) = str "00112233445566778899aaff" /\
  parse (str "00112233445566778899AAfg") = null_oid.
Proof. split; reflexivity. Qed.

(** C52.  Two of any 2^24 consecutive ids generated by a process differ, whatever the clock shows. *)
Theorem C52_generated_ids_distinct_partial :
  forall ts rnd n ts' i j, ts < 2^32 -> ts' < 2^32 -> i < j -> j - i < 2^24 ->
  gen ts rnd (n + i) <> gen ts' rnd (n + j).
Proof. exact gen_distinct. Qed.
Print Assumptions C52_generated_ids_distinct_partial.

(** Ids of a later second are greater, and carry their second. *)
Theorem C52_ids_ordered_by_time :
  forall ts rnd n ts' rnd' n', ts < ts' -> ts' < 2^32 ->
  oid_cmp (gen ts rnd n) (gen ts' rnd' n') = Lt /\ get_timestamp (gen ts rnd n) = ts.
Proof. exact (fun ts rnd n ts' rnd' n' H H' => conj (gen_order ts rnd n ts' rnd' n' H H')
                                                 (gen_timestamp ts rnd n (N.lt_trans _ _ _ H H'))). Qed.
Print Assumptions C52_ids_ordered_by_time.

(** Without the bound the claim is false: the id generated 2^24 calls later in the same second is the
    same id. *)
Theorem C52_ids_repeat_refuted :
  forall ts rnd n, n < 2^32 - 2^24 -> gen ts rnd (n + 2^24) = gen ts rnd n.
Proof. exact gen_repeats. Qed.
Print Assumptions C52_ids_repeat_refuted.

Example C52_case : gen 1700000000 123 7 <> gen 1700000000 123 8.
Proof. apply (C52_generated_ids_distinct_partial 1700000000 123 7 1700000000 0 1); reflexivity. Qed.
