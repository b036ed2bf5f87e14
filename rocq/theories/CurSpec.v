(** A cursor is a list and the number of documents taken from it. *)
From Coq Require Import Permutation.
From Verif Require Import Bytes Outcome CurModel.
Local Open Scope Z_scope.

Fixpoint answers {D} (l : list D) (taken : nat) (xs : list (call D)) : list (reply D) :=
  match xs with
  | [] => []
  | Size :: r => Number (Z.of_nat (length l)) :: answers l taken r
  | Has_next :: r => Truth (Nat.ltb taken (length l)) :: answers l taken r
  | Next :: r => Document (nth_error l taken) :: answers l (S taken) r
  | Get :: r => Document (nth_error l (Nat.pred taken)) :: answers l taken r
  | Get_at i :: r => Document (if i <? 0 then None else nth_error l (Z.to_nat i)) :: answers l taken r
  | Sort f :: r => Done :: answers (f l) 0 r
  end.
(** sorting only orders; an index of the interface has 32 bits *)
Definition allowed {D} (x : call D) : Prop :=
  match x with
  | Sort f => forall l, Permutation (f l) l
  | Get_at i => - 2 ^ 31 <= i < 2 ^ 31
  | _ => True
  end.
