(** Model of core/numbers/fixed_point.hpp and the helpers of core/numbers/temporary.hpp for the
    decimal types (Radix::BASE_10).  Signed overflow and division by zero are [Err UB]; a failed
    assertion_exception_msg is [Err Throw] (it throws with NDEBUG and terminates the process without).
    Floating point conversions are not modelled. *)
From Verif Require Import Bytes Outcome MetaModel.
Local Open Scope Z_scope.

(** fixed_point.hpp:30-32, the supported representation types *)
Inductive rep := I32 | I64 | I128.
Definition bits (r : rep) : Z := match r with I32 => 32 | I64 => 64 | I128 => 128 end.
Definition rmax (r : rep) : Z := 2 ^ (bits r - 1) - 1.
Definition rmin (r : rep) : Z := - 2 ^ (bits r - 1).
Definition inr (r : rep) (v : Z) : bool := (rmin r <=? v) && (v <=? rmax r).
(** the result of an arithmetic operation on Rep, and on int32_t scales *)
Definition chk (r : rep) (v : Z) : res Z := if inr r v then Ok v else Err UB.

Record fp := { value : Z; scale : Z }.

(** fixed_point.hpp:42-59 [ipow]: square and multiply *)
Fixpoint ipow_loop (r : rep) (fuel : nat) (e extra square : Z) : res Z :=
  match fuel with
  | O => Err Diverge
  | S f =>
    if 1 <? e then
      do ee <- (if Z.odd e then do x <- chk r (extra * square); Ok (x, e - 1) else Ok (extra, e));
      do sq <- chk r (square * square);
      ipow_loop r f (Z.quot (snd ee) 2) (fst ee) sq
    else chk r (square * extra)
  end.
Definition ipow (r : rep) (e : Z) : res Z :=
  if e <? 0 then Err Throw
  else if e =? 0 then Ok 1
  else ipow_loop r (S (Z.to_nat (Z.log2 e))) e 1 10.

(** fixed_point.hpp:62-80 [right_shift], [left_shift], [shift] for integral T = Rep *)
Definition shift (r : rep) (v s : Z) : res Z :=
  if s =? 0 then Ok v
  else if 0 <? s then do p <- ipow r s; chk r (Z.quot v p)
  else do n <- chk I32 (- s); do p <- ipow r n; chk r (v * p).

(** fixed_point.hpp:211-217 [rescaled] *)
Definition rescaled (r : rep) (x : fp) (s : Z) : res fp :=
  if s =? scale x then Ok x
  else do d <- chk I32 (s - scale x); do v <- shift r (value x) d; Ok {| value := v; scale := s |}.

(** fixed_point.hpp:235-268, the overflow tests; the inner expressions do not overflow for operands of type Rep *)
Definition addition_overflow (r : rep) (l h : Z) : bool :=
  if 0 <? h then rmax r - h <? l else l <? rmin r - h.
Definition subtraction_overflow (r : rep) (l h : Z) : bool :=
  if 0 <? h then l <? rmin r + h else rmax r + h <? l.
Definition division_overflow (r : rep) (l h : Z) : bool := (l =? rmin r) && (h =? -1).
Definition multiplication_overflow (r : rep) (l h : Z) : bool :=
  if 0 <? h then (Z.quot (rmax r) h <? l) || (l <? Z.quot (rmin r) h)
  else if h <? -1 then (Z.quot (rmin r) h <? l) || (l <? Z.quot (rmax r) h)
  else (h =? -1) && (l =? rmin r).

(** both operands brought to the smaller scale, as in every binary operator below *)
Definition align (r : rep) (x y : fp) : res (Z * Z) :=
  let s := Z.min (scale x) (scale y) in
  do a <- rescaled r x s; do b <- rescaled r y s; Ok (value a, value b).

(** fixed_point.hpp:270-278 operator+: the sum is formed before the overflow test *)
Definition fadd (r : rep) (x y : fp) : res fp :=
  do ab <- align r x y;
  do sum <- chk r (fst ab + snd ab);
  if addition_overflow r (fst ab) (snd ab) then Err Throw
  else Ok {| value := sum; scale := Z.min (scale x) (scale y) |}.
(** fixed_point.hpp:280-288 operator- *)
Definition fsub (r : rep) (x y : fp) : res fp :=
  do ab <- align r x y;
  do diff <- chk r (fst ab - snd ab);
  if subtraction_overflow r (fst ab) (snd ab) then Err Throw
  else Ok {| value := diff; scale := Z.min (scale x) (scale y) |}.
(** fixed_point.hpp:290-295 operator-star *)
Definition fmul (r : rep) (x y : fp) : res fp :=
  if multiplication_overflow r (value x) (value y) then Err Throw
  else do p <- chk r (value x * value y); do s <- chk I32 (scale x + scale y); Ok {| value := p; scale := s |}.
(** fixed_point.hpp:297-302 operator/ *)
Definition fdiv (r : rep) (x y : fp) : res fp :=
  if division_overflow r (value x) (value y) then Err Throw
  else if value y =? 0 then Err UB
  else do p <- chk r (Z.quot (value x) (value y)); do s <- chk I32 (scale x - scale y); Ok {| value := p; scale := s |}.
(** fixed_point.hpp:304-338: the comparison operators all compare the aligned values *)
Definition fcmp (r : rep) (x y : fp) : res comparison :=
  do ab <- align r x y; Ok (fst ab ?= snd ab).

(** temporary.hpp:61-65 [exp10] *)
Fixpoint exp10 (r : rep) (n : nat) (v : Z) : res Z :=
  match n with O => Ok v | S n' => do w <- chk r (v * 10); exp10 r n' w end.
(** temporary.hpp:15-38 [to_string]: std::to_string, except that the int128 version writes no digit for 0 *)
Definition fmt (r : rep) (v : Z) : list byte :=
  match r, v with
  | I128, 0 => []
  | _, _ => (if v <? 0 then str "-" else []) ++ to_string (Z.to_N (Z.abs v))
  end.
(** fixed_point.hpp:219-231 operator std::string *)
Definition to_text (r : rep) (x : fp) : res (list byte) :=
  if scale x <? 0 then
    do av <- (if 0 <=? value x then Ok (value x) else chk r (- value x));
    do ns <- chk I32 (- scale x);
    do n <- exp10 r (Z.to_nat ns) 1;
    let f := Z.rem av n in
    let zeros := repeat (byte_of_N 48) (Z.to_nat (Z.max 0 (ns - Z.of_nat (length (fmt r f))))) in
    Ok ((if value x <? 0 then str "-" else []) ++ fmt r (Z.quot av n) ++ str "." ++ zeros ++ fmt r f)
  else Ok (fmt r (value x) ++ repeat (byte_of_N 48) (Z.to_nat (scale x))).
