(** Meaning of a glob pattern. *)
From Verif Require Import Bytes GlobModel.

(** Pattern elements: '*', '?', a literal, a set of ranges (possibly inverted), or a malformed element
    that matches nothing (a trailing backslash, an unclosed bracket). *)
Inductive item := Star | Any | Lit (c : byte) | Set_ (inv : bool) (rs : list (byte * byte)) | Bad.

(** The inside of a bracket, up to the closing bracket: "a-b" is a range, anything else stands for
    itself, and a closing bracket in first position is an ordinary character. *)
Fixpoint ranges (first : bool) (p : list byte) : option (list (byte * byte) * list byte) :=
  match p with
  | [] => None
  | a :: r =>
    if is_close a && negb first then Some ([], r)
    else match r with
         | b :: ((c :: r3) as r2) =>
           if is_dash b then
             match ranges false r3 with Some (l, t) => Some ((a, c) :: l, t) | None => None end
           else match ranges false r with Some (l, t) => Some ((a, a) :: l, t) | None => None end
         | _ => match ranges false r with Some (l, t) => Some ((a, a) :: l, t) | None => None end
         end
  end.

Definition in_range (s : byte) (r : byte * byte) : Prop := (signed (fst r) <= signed s <= signed (snd r))%Z.
Definition accepts (i : item) (s : byte) : Prop :=
  match i with
  | Star | Bad => False
  | Any => True
  | Lit c => s = c
  | Set_ inv rs => if inv then ~ Exists (in_range s) rs else Exists (in_range s) rs
  end.

(** A pattern read from left to right. *)
Inductive reads : list byte -> list item -> Prop :=
| R_nil : reads [] []
| R_star p is : reads p is -> reads (ch 42 :: p) (Star :: is)
| R_any p is : reads p is -> reads (ch 63 :: p) (Any :: is)
| R_esc c p is : reads p is -> reads (ch 92 :: c :: p) (Lit c :: is)
| R_esc_end : reads [ch 92] [Bad]
| R_set p rs t is : hd_error p <> Some (ch 33) -> ranges true p = Some (rs, t) -> reads t is ->
    reads (ch 91 :: p) (Set_ false rs :: is)
| R_inv p rs t is : ranges true p = Some (rs, t) -> reads t is ->
    reads (ch 91 :: ch 33 :: p) (Set_ true rs :: is)
| R_set_bad p : hd_error p <> Some (ch 33) -> ranges true p = None -> reads (ch 91 :: p) [Bad]
| R_inv_bad p : ranges true p = None -> reads (ch 91 :: ch 33 :: p) [Bad]
| R_lit c p is : is_star c = false -> is_quest c = false -> is_open c = false -> is_bslash c = false ->
    reads p is -> reads (c :: p) (Lit c :: is).

(** A name matches: a star takes any run of characters, any other element exactly one. *)
Inductive matches : list item -> list byte -> Prop :=
| M_nil : matches [] []
| M_star is u s : matches is s -> matches (Star :: is) (u ++ s)
| M_one i is c s : accepts i c -> matches is s -> matches (i :: is) (c :: s).
