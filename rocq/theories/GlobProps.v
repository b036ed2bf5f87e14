(** Property C23: glob patterns. *)
From Verif Require Import Bytes Outcome GlobModel GlobSpec GlobProofs.

(** Every pattern has a reading, and the answer is the meaning of any reading. *)
Theorem C23_glob_decides_matching :
  forall s p,
  (exists is, reads p is) /\
  (forall is, reads p is -> exists b, glob s p = Ok b /\ (b = true <-> matches is s)).
Proof. exact (fun s p => conj (reads_total (length p) p (le_n _)) (glob_correct_any s p)). Qed.
Print Assumptions C23_glob_decides_matching.

Example C23_case :
  glob (str "data-17.csv") (str "d*-[0-9][!x].c?v") = Ok true /\ glob (str "data-1x.csv") (str "d*-[0-9][!x].c?v") = Ok false /\
  glob (str "a]b") (str "a[]]*") = Ok true /\ glob (str "a*") (str "a\*") = Ok true /\ glob (str "ab") (str "a\*") = Ok false.
Proof. repeat split. Qed.

(** With the question mark switched off the function does not treat '?' as a literal but as the start
    of a bracket expression. *)
Theorem C23_question_mark_off_refuted :
  glob_f 10 false (str "?") (str "?") = Ok false /\ glob_f 10 false (str "b") (str "?abc]") = Ok true.
Proof. split; reflexivity. Qed.
Print Assumptions C23_question_mark_off_refuted.
