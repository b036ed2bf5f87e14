(** Results of modelled C++ functions.  [Throw]: a C++ exception leaves the function;
    [UB]: undefined behaviour (out-of-bounds access, null dereference, type confusion, ...);
    [Diverge]: the fuel of the model ran out, i.e. the loop did not finish within the stated bound. *)
Inductive err := Throw | UB | Diverge.
Inductive res (A : Type) := Ok (a : A) | Err (e : err).
Arguments Ok {A} a.
Arguments Err {A} e.
Definition rbind {A B} (x : res A) (f : A -> res B) : res B :=
  match x with Ok a => f a | Err e => Err e end.
Notation "'do' x <- m ; f" := (rbind m (fun x => f)) (at level 200, x name, m at level 100, f at level 200).
Notation "'do' ' p <- m ; f" := (rbind m (fun p => f)) (at level 200, p strict pattern, m at level 100, f at level 200).
