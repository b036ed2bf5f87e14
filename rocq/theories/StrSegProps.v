(** Columns of strings: the theorems. *)
From Verif Require Import Bytes Outcome StrSegModel StrSegSpec StrSegProofs3.

(** C42.  For every block size from 32 bytes, whatever the blocks held before, any sequence of appends of
    any strings and NULLs completes, over as many segments as it takes; and every row that is a string
    shorter than the limit (a quarter of the block, at most 4096 bytes), or a NULL whose last string
    before is such, is read back unchanged, by itself and in a scan of any range of such rows.
    Missing: strings from the limit on, and the NULLs right after them. *)
Theorem C42_column_partial :
  forall bs junk chunks,
    32 <= bs -> (N.of_nat bs < 2 ^ 31)%N -> (forall n, length (junk n) = bs) ->
    exists c, append_chunks bs junk [] chunks = Ok c /\
      (forall i v, nth_error (concat chunks) i = Some v -> readable (limit bs) (concat chunks) i ->
         column_fetch c i = Ok (value v)) /\
      (forall start n, start + n <= length (concat chunks) ->
         (forall i, start <= i < start + n -> readable (limit bs) (concat chunks) i) ->
         column_scan c start n = Ok (map value (firstn n (skipn start (concat chunks))))).
Proof. exact column_main. Qed.
Print Assumptions C42_column_partial.

(** C42, against the code: no string from the limit on is ever read back, by itself or in a scan; this
    holds for every such string in every column. *)
Theorem C42_long_refuted :
  forall bs junk chunks c i s,
    64 <= bs -> (N.of_nat bs < 2 ^ 31)%N -> (forall n, length (junk n) = bs) ->
    append_chunks bs junk [] chunks = Ok c ->
    nth_error (concat chunks) i = Some (Some s) -> limit bs <= length s ->
    column_fetch c i <> Ok s /\
    (forall start n, start <= i < start + n -> start + n <= length (concat chunks) ->
       column_scan c start n <> Ok (map value (firstn n (skipn start (concat chunks))))).
Proof. exact column_long. Qed.
Print Assumptions C42_long_refuted.

Definition zeros (bs : nat) (_ : nat) : list byte := repeat (ascii_of_N 0) bs.
Definition long : list byte := str "a string of more than sixteen bytes".

Ltac column_of chunks :=
  let r := eval vm_compute in (append_chunks 64 (zeros 64) [] chunks) in match r with Ok ?c => exists c end.

(** C42, against the code: the read of a NULL after a long string leaves the memory of the column. *)
Theorem C42_null_refuted :
  exists c, append_chunks 64 (zeros 64) [] [ [Some (str "abcd"); Some long; None] ] = Ok c /\
    column_fetch c 0 = Ok (str "abcd") /\ column_fetch c 2 = Err UB /\ column_scan c 0 3 = Err UB.
Proof. column_of [ [Some (str "abcd"); Some long; None] ]. vm_compute. repeat split. Qed.
Print Assumptions C42_null_refuted.

(** The limit, and a column of several segments with a long string in the middle. *)
Example limit_64 : limit 64 = 16. Proof. vm_compute. reflexivity. Qed.
Definition three : list (list (option (list byte))) :=
  [ [Some (str "first"); None; Some []; Some (str "fifteen letters")]; [];
    [None; Some long; None; Some (str "after"); None]; [Some (str "x"); Some (str "last one")] ].
Example three_segments :
  exists c, append_chunks 64 (zeros 64) [] three = Ok c /\ map g_count c = [5; 5; 1] /\
    column_fetch c 3 = Ok (str "fifteen letters") /\ column_fetch c 7 = Ok (str "after") /\
    column_scan c 7 4 = Ok [str "after"; []; str "x"; str "last one"] /\ column_fetch c 5 = Err UB.
Proof. column_of three. vm_compute. repeat split. Qed.
Example three_readable : readable (limit 64) (concat three) 3 /\ readable (limit 64) (concat three) 8 /\ ~ readable (limit 64) (concat three) 6.
Proof.
  rewrite limit_64. split; [vm_compute; lia |]. split.
  - intros j s H E K. destruct (Nat.eq_dec j 7) as [-> | N].
    + injection E as <-. vm_compute. lia.
    + specialize (K 7 ltac:(lia) ltac:(lia)). discriminate.
  - intros H. specialize (H 5 long ltac:(lia) eq_refl ltac:(intros; lia)). vm_compute in H. lia.
Qed.
