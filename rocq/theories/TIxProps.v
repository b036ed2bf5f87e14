(** C97: a query with a condition on an indexed column of a table. *)
From Verif Require Import Bytes Outcome TIxModel TIxSpec TIxProofs.
Require Import Permutation.
Local Open Scope nat_scope.

(** Whichever of the entries with an equal key the index removes.  Missing: a second INSERT, an UPDATE, an index created on a
    table with rows, a DELETE of some of the rows with a key (refuted below). *)
Theorem C97_partial ch l : fits None false [] l = true ->
  exists st, steps ch empty l = Ok st /\ forall cd lim, answers (query st cd lim) (filter (meets cd) (table l)) lim.
Proof. exact (C97_main ch l). Qed.
Print Assumptions C97_partial.
Example C97_case : let l := [Create 0; Insert [[5; 1]; [3; 2]; [5; 3]; [-4; 4]]%Z; Delete (Some (0, CEq, 5%Z)); Delete (Some (1, CGte, 4%Z))] in
  fits None false [] l = true /\ table l = [[3%Z; 2%Z]] /\
  fits None false [] [Insert [[1]]%Z; Insert [[2]]%Z; Update (Some (0, CLt, 2%Z)) 0 9%Z] = true.
Proof. vm_compute. split; [|split]; reflexivity. Qed.
Example C97_limit_case : let l := [Create 0; Insert [[5; 1]; [3; 2]; [5; 3]; [-4; 4]]%Z] in
  exists st, steps (fun _ _ => 0) empty l = Ok st /\ query st (Some (0, CNe, 3%Z)) (Some 2) = [[-4; 4]; [5; 1]]%Z.
Proof. eexists. split; [reflexivity|reflexivity]. Qed.

(** After a second INSERT the index finds rows of the first only, for any key but 0 … *)
Theorem C97_insert_refuted ch col xs ys v : v <> 0%Z -> length ys <= length xs -> length xs + length ys <= 1024 ->
  exists st, steps ch empty [Create col; Insert xs; Insert ys] = Ok st /\
  answers (query st (Some (col, CEq, v)) None) (filter (meets (Some (col, CEq, v))) xs) None.
Proof. exact (second_insert ch col xs ys v). Qed.
Print Assumptions C97_insert_refuted.
(** … such as this one, which is in the table … *)
Theorem C97_insert_case_refuted ch : exists st, steps ch empty [Create 0; Insert [[1]]%Z; Insert [[2]]%Z] = Ok st /\
  query st (Some (0, CEq, 2%Z)) None = [] /\ query st (Some (0, CEq, 0%Z)) None = [[2%Z]] /\ In [2%Z] (query st None None).
Proof. eexists. split; [reflexivity|]. split; [reflexivity|]. split; [reflexivity|right; left; reflexivity]. Qed.
Print Assumptions C97_insert_case_refuted.
(** … and with 1024 rows in the table the INSERT reads past the rows it was given. *)
Theorem C97_full_refuted ch col xs ys : 1024 <= length xs -> ys <> [] -> length ys <= length xs ->
  steps ch empty [Create col; Insert xs; Insert ys] = Err UB.
Proof. exact (second_insert_late ch col xs ys). Qed.
Print Assumptions C97_full_refuted.

(** An index created on a table with rows finds none of them, and deleting all rows erases what is not in the index. *)
Theorem C97_created_later_refuted ch col xs c v lim :
  (exists st, steps ch empty [Insert xs; Create col] = Ok st /\ query st (Some (col, c, v)) lim = []) /\
  (xs <> [] -> steps ch empty [Insert xs; Create col; Delete None] = Err UB).
Proof. exact (conj (created_later ch col xs c v lim) (created_later_delete ch col xs)). Qed.
Print Assumptions C97_created_later_refuted.

(** Whatever entry the index removes, a DELETE of one of two rows with a key can leave the deleted row to be found. *)
Theorem C97_delete_refuted ch : exists b st, steps ch empty [Create 0; Insert [[5; 1]; [5; 2]]%Z; Delete (Some (1, CEq, b))] = Ok st /\
  query st (Some (0, CEq, 5%Z)) None = [[5%Z; b]] /\ ~ In [5%Z; b] (table [Create 0; Insert [[5; 1]; [5; 2]]%Z; Delete (Some (1, CEq, b))]).
Proof. exact (delete_equal ch). Qed.
Print Assumptions C97_delete_refuted.

(** After an UPDATE the index finds another row under the new key. *)
Theorem C97_update_refuted ch : exists st, steps ch empty [Create 0; Insert [[1]; [2]; [3]]%Z; Update (Some (0, CEq, 3%Z)) 0 7%Z] = Ok st /\
  query st (Some (0, CEq, 7%Z)) None = [[1%Z]] /\ query st None None = table [Create 0; Insert [[1]; [2]; [3]]%Z; Update (Some (0, CEq, 3%Z)) 0 7%Z] /\
  In [7%Z] (query st None None).
Proof. exact (update_moves ch). Qed.
Print Assumptions C97_update_refuted.
