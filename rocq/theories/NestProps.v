(** Nested columns give back the values stored in them (C101). *)
From Verif Require Import Bytes Outcome NestModel NestSpec NestProofs.
Local Open Scope nat_scope.

Theorem C101_scan_partial : forall t bs s ns, wft t -> Forall (batch_ok t) bs -> list_sum ns <= length (rows_of bs) ->
  exists c vs, append_all (new t) bs = Ok c /\ scan_all c s (init c s) ns = Ok vs /\ map snd vs = ns /\
    rows_of vs = firstn (list_sum ns) (rows_of bs).
Proof. exact scanned. Qed.
Print Assumptions C101_scan_partial.
Example C101_scan_case : wft ex_ty /\ Forall (batch_ok ex_ty) [(ex_batch, 3); (ex_batch, 2)] /\
  rows_of [(ex_batch, 2)] =
  [Rec (Fields (Prim 7) (Fields (Lst [Rec (Fields (Prim 3) NoFields)]) (Fields (Lst [Lst [Prim 4; Prim 5]; Lst [Prim 5]]) NoFields))); Null].
Proof.
  split; [cbn; tauto|]. split; [|reflexivity]. constructor; [apply ex_batch_ok|]. constructor; [|constructor].
  destruct ex_batch_ok as (m & V & L & O). exists m. split; [exact V|]. split; [cbn in *; auto with arith|].
  cbn [fst snd ex_ty ex_batch in_order]. cbn [no_arrays]. auto 10.
Qed.

Theorem C101_from_partial : forall t bs s r ns, wft t -> Forall (batch_ok t) bs -> r < length (rows_of bs) ->
  r + list_sum ns <= length (rows_of bs) ->
  exists c st vs, append_all (new t) bs = Ok c /\ init_at c s (s + r) = Ok st /\ scan_all c s st ns = Ok vs /\ map snd vs = ns /\
    rows_of vs = firstn (list_sum ns) (skipn r (rows_of bs)).
Proof. exact scanned_from. Qed.
Print Assumptions C101_from_partial.
Example C101_from_case : exists c st vs, append_all (new ex_ty) [(ex_batch, 3); (ex_batch, 3)] = Ok c /\
  init_at c 10 12 = Ok st /\ scan_all c 10 st [1; 3] = Ok vs /\ length (rows_of vs) = 4.
Proof. eexists _, _, _. split; [reflexivity|]. split; [reflexivity|]. split; reflexivity. Qed.

Theorem C101_fetch_partial : forall t bs s ids, wft t -> arrays_outside t -> Forall (batch_ok t) bs ->
  Forall (fun i => i < length (rows_of bs)) ids ->
  exists c v, append_all (new t) bs = Ok c /\ fetch_all c s (map (Nat.add s) ids) (vempty c) = Ok v /\
    rows v (length ids) = map (fun i => nth i (rows_of bs) Junk) ids.
Proof. exact fetched. Qed.
Print Assumptions C101_fetch_partial.
Example C101_fetch_case : wft ex_ty /\ arrays_outside ex_ty /\ Forall (batch_ok ex_ty) [(ex_batch, 3)].
Proof. split; [cbn; tauto|]. split; [cbn; auto 10|]. constructor; [apply ex_batch_ok|constructor]. Qed.

Theorem C101_copy_partial : forall t v w a b, wft t -> no_arrays t -> vwf t v a -> vwf t w b ->
  rows (copy v w) (a + b) = rows v a ++ rows w b.
Proof. exact copied. Qed.
Print Assumptions C101_copy_partial.
Example C101_copy_case : rows (copy (VList [Some (0, 1)] (VLeaf [Some 1%N])) (VList [Some (1, 1); None; Some (0, 2)] (VLeaf [Some 2%N; Some 3%N]))) 4
  = [Lst [Prim 1]; Lst [Prim 3]; Null; Lst [Prim 2; Prim 3]].
Proof. reflexivity. Qed.

Theorem C101_slice_partial : forall t v m ix, wft t -> no_arrays t -> vwf t v m -> Forall (fun i => i < m) ix ->
  rows (take v ix) (length ix) = map (fun i => nth i (rows v m) Junk) ix.
Proof. exact sliced. Qed.
Print Assumptions C101_slice_partial.
Example C101_slice_case : rows (take (VList [Some (1, 1); None; Some (0, 2)] (VLeaf [Some 2%N; Some 3%N])) [2; 2; 0]) 3
  = [Lst [Prim 2; Prim 3]; Lst [Prim 2; Prim 3]; Lst [Prim 3]].
Proof. reflexivity. Qed.

(** Lists of arrays that do not lie one behind the other cannot be appended. *)
Theorem C101_order_refuted : exists t v n, wft t /\ vwf t v n /\ append_all (new t) [(v, n)] = Err UB.
Proof. exact order_refuted. Qed.
Print Assumptions C101_order_refuted.
(** A row fetched by its id loses the elements of its arrays. *)
Theorem C101_fetch_refuted : exists t bs i c v, wft t /\ Forall (batch_ok t) bs /\ i < length (rows_of bs) /\
  append_all (new t) bs = Ok c /\ fetch_all c 0 [i] (vempty c) = Ok v /\ nth_error (rows_of bs) i <> nth_error (rows v 1) 0.
Proof. exact fetch_refuted. Qed.
Print Assumptions C101_fetch_refuted.
(** So does a vector of arrays that is copied. *)
Theorem C101_copy_refuted : exists t v w a b, wft t /\ vwf t v a /\ vwf t w b /\ rows (copy v w) (a + b) <> rows v a ++ rows w b.
Proof. exact copy_refuted. Qed.
Print Assumptions C101_copy_refuted.
