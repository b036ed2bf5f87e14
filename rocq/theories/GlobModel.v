(** Model of core/file/path_utils.cpp:42-145 [glob].  Suffixes of the strings stand for the index
    variables sidx and pidx. *)
From Verif Require Import Bytes Outcome.
Local Open Scope N_scope.

Definition ch (n : N) : byte := byte_of_N n.
Definition beq (a b : byte) : bool := N_of_byte a =? N_of_byte b.
Definition is_star c := beq c (ch 42).
Definition is_quest c := beq c (ch 63).
Definition is_open c := beq c (ch 91).
Definition is_close c := beq c (ch 93).
Definition is_bslash c := beq c (ch 92).
Definition is_bang c := beq c (ch 33).
Definition is_dash c := beq c (ch 45).

(** [char] is signed on the supported platforms: ranges compare signed values *)
Definition signed (c : byte) : Z :=
  if N_of_byte c <? 128 then Z.of_N (N_of_byte c) else (Z.of_N (N_of_byte c) - 256)%Z.

(** path_utils.cpp:52-54, 91-93: skip a run of stars *)
Fixpoint skip_stars (p : list byte) : list byte :=
  match p with x :: r => if is_star x then skip_stars r else p | [] => [] end.

(** path_utils.cpp:110-135: the loop over a bracket expression.  [first] is pidx = start_pos.
    [None]: no closing bracket.  [found] is found_match. *)
Fixpoint bracket_loop (s : byte) (invert : bool) (first found : bool) (p : list byte) : option (bool * list byte) :=
  match p with
  | [] => None
  | a :: r =>
    if is_close a && negb first then Some (found, r)
    else match r with
         | [] => None
         | b :: r2 =>
           if is_dash b then
             match r2 with
             | [] => None
             | c :: r3 =>
               let matches := ((signed a <=? signed s) && (signed s <=? signed c))%Z in
               bracket_loop s invert false (if Bool.eqb found invert && matches then negb invert else found) r3
             end
           else
             bracket_loop s invert false (if Bool.eqb found invert && beq a s then negb invert else found) r
         end
  end.

(** path_utils.cpp:96-144 [parse_bracket]: [None] is return false, otherwise the rest of the pattern *)
Definition parse_bracket (s : byte) (p : list byte) : option (list byte) :=
  match p with
  | [] => None
  | x :: r =>
    let invert := is_bang x in
    match bracket_loop s invert true invert (if invert then r else p) with
    | Some (found, rest) => if (found : bool) then Some rest else None
    | None => None
    end
  end.

(** path_utils.cpp:58-63: the loop over the suffixes of the string *)
Fixpoint try_suffixes (k : list byte -> res bool) (s : list byte) : res bool :=
  match s with
  | [] => Ok false
  | _ :: r => do b <- k s; if (b : bool) then Ok true else try_suffixes k r
  end.

(** path_utils.cpp:42-145; [aq] is allow_question_mark.  Without it a '?' falls through to the
    bracket case (path_utils.cpp:65-71). *)
Fixpoint glob_f (fuel : nat) (aq : bool) (s p : list byte) : res bool :=
  match fuel with
  | O => Err Diverge
  | S f =>
    match s, p with
    | c :: s', x :: p' =>
      if is_star x then
        match skip_stars p' with
        | [] => Ok true
        | p2 => try_suffixes (fun t => glob_f f aq t p2) s
        end
      else if is_quest x && aq then glob_f f aq s' p'
      else if is_quest x || is_open x then
        match parse_bracket c p' with
        | Some rest => glob_f f aq s' rest
        | None => Ok false
        end
      else if is_bslash x then
        match p' with
        | [] => Ok false
        | y :: p'' => if beq c y then glob_f f aq s' p'' else Ok false
        end
      else if beq c x then glob_f f aq s' p' else Ok false
    | _, _ => Ok (match skip_stars p, s with [], [] => true | _, _ => false end)
    end
  end.

(** local_file_system.cpp:1019 calls it with allow_question_mark = true *)
Definition glob (s p : list byte) : res bool := glob_f (S (length p)) true s p.
