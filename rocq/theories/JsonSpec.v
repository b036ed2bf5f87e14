(** JSON text (RFC 8259): a reader of it, and what the text of a document must mean. *)
From Verif Require Import Bytes Outcome ByteOrd GlobModel.
From Verif Require Import TapeModel DocPackModel DocPackSpec JsonModel.
Local Open Scope N_scope.

Definition quote : byte := byte_of_N 34.
Definition backslash : byte := byte_of_N 92.

(** White space is blank, tab, line feed and carriage return. *)
Definition white (c : byte) : bool := let n := N_of_byte c in (n =? 32) || (n =? 9) || (n =? 10) || (n =? 13).
Fixpoint skip (s : list byte) : list byte := match s with c :: r => if white c then skip r else s | [] => [] end.
Definition starts (w s : list byte) : option (list byte) :=
  if beqb w (firstn (length w) s) then Some (skipn (length w) s) else None.

(** The rest of a string behind its first quotation mark: the characters up to the next one, no control characters, with
    the escapes of one letter.  Simplification: a \u escape is not read; bytes above 127 are taken as they are. *)
Definition escape (c : byte) : option byte :=
  if beq c quote || beq c backslash || beq c "/"%char then Some c
  else if beq c "b"%char then Some (byte_of_N 8) else if beq c "f"%char then Some (byte_of_N 12)
  else if beq c "n"%char then Some (byte_of_N 10) else if beq c "r"%char then Some (byte_of_N 13)
  else if beq c "t"%char then Some (byte_of_N 9) else None.
Fixpoint read_string (s : list byte) : option (list byte * list byte) :=
  match s with
  | [] => None
  | c :: r =>
    if beq c quote then Some ([], r)
    else if beq c backslash then
      match r with
      | e :: r' => match escape e, read_string r' with Some x, Some (t, rest) => Some (x :: t, rest) | _, _ => None end
      | [] => None
      end
    else if N_of_byte c <? 32 then None
    else match read_string r with Some (t, rest) => Some (c :: t, rest) | None => None end
  end.

(** An integer: digits, without superfluous zeros.  Simplification: a number with a fraction or an exponent is not read. *)
Definition is_digit (c : byte) : bool := let n := N_of_byte c in (48 <=? n) && (n <=? 57).
Fixpoint read_digits (a : N) (s : list byte) : N * list byte :=
  match s with
  | c :: r => if is_digit c then read_digits (10 * a + (N_of_byte c - 48)) r else (a, s)
  | [] => (a, [])
  end.
Definition goes_on (s : list byte) : bool :=
  match s with c :: _ => is_digit c || beq c "."%char || beq c "e"%char || beq c "E"%char | [] => false end.
Definition read_natural (s : list byte) : option (N * list byte) :=
  match s with
  | c :: r =>
    if beq c "0"%char then if goes_on r then None else Some (0, r)
    else if is_digit c then let '(n, rest) := read_digits 0 s in if goes_on rest then None else Some (n, rest)
    else None
  | [] => None
  end.

(** A value, and what is behind it.  The depth is bounded by the length of the text. *)
Fixpoint read_value (fuel : nat) (s : list byte) : option (json * list byte) :=
  match fuel with
  | O => None
  | S f =>
    let s := skip s in
    match starts (str "null") s, starts (str "true") s, starts (str "false") s with
    | Some r, _, _ => Some (JNull, r)
    | _, Some r, _ => Some (JBool true, r)
    | _, _, Some r => Some (JBool false, r)
    | None, None, None =>
      match s with
      | [] => None
      | c :: r =>
        if beq c quote then match read_string r with Some (t, rest) => Some (JStr t, rest) | None => None end
        else if beq c "-"%char then match read_natural r with Some (n, rest) => Some (JInt (- Z.of_N n), rest) | None => None end
        else if beq c "{"%char then
          match starts (str "}") (skip r) with
          | Some rest => Some (JObj [], rest)
          | None => match read_members f r with Some (l, rest) => Some (JObj l, rest) | None => None end
          end
        else if beq c "["%char then
          match starts (str "]") (skip r) with
          | Some rest => Some (JArr [], rest)
          | None => match read_elements f r with Some (l, rest) => Some (JArr l, rest) | None => None end
          end
        else match read_natural s with Some (n, rest) => Some (JInt (Z.of_N n), rest) | None => None end
      end
    end
  end
with read_members (fuel : nat) (s : list byte) : option (list (list byte * json) * list byte) :=
  match fuel with
  | O => None
  | S f =>
    match starts [quote] (skip s) with
    | None => None
    | Some r =>
      match read_string r with
      | None => None
      | Some (k, r1) =>
        match starts (str ":") (skip r1) with
        | None => None
        | Some r2 =>
          match read_value f r2 with
          | None => None
          | Some (v, r3) =>
            match starts (str "}") (skip r3), starts (str ",") (skip r3) with
            | Some rest, _ => Some ([(k, v)], rest)
            | None, Some r4 => match read_members f r4 with Some (l, rest) => Some ((k, v) :: l, rest) | None => None end
            | None, None => None
            end
          end
        end
      end
    end
  end
with read_elements (fuel : nat) (s : list byte) : option (list json * list byte) :=
  match fuel with
  | O => None
  | S f =>
    match read_value f s with
    | None => None
    | Some (v, r3) =>
      match starts (str "]") (skip r3), starts (str ",") (skip r3) with
      | Some rest, _ => Some ([v], rest)
      | None, Some r4 => match read_elements f r4 with Some (l, rest) => Some (v :: l, rest) | None => None end
      | None, None => None
      end
    end
  end.
Definition read_json (s : list byte) : option json :=
  match read_value (S (length s)) s with
  | Some (v, r) => match skip r with [] => Some v | _ => None end
  | None => None
  end.

(** The JSON value of the content of a document. *)
Fixpoint meaning (v : content) : json :=
  match v with
  | CScalar SNull => JNull
  | CScalar (SBool b) => JBool b
  | CScalar (SInt _ z) => JInt z
  | CScalar (SString s) => JStr s
  | CScalar _ => JNull
  | CObj gs => JObj (map (fun kv => (fst kv, meaning (snd kv))) gs)
  | CArr vs => JArr (map meaning vs)
  end.
(** The same content with every integer as one of 64 bits. *)
Fixpoint long (v : content) : content :=
  match v with
  | CScalar (SInt _ z) => CScalar (SInt I64 z)
  | CScalar s => CScalar s
  | CObj gs => CObj (map (fun kv => (fst kv, long (snd kv))) gs)
  | CArr vs => CArr (map long vs)
  end.

(** What is written correctly: strings and names without quotation marks, backslashes and control characters, integers
    that fit in 32 bits, no 128 bit integers and no floating point numbers (not modelled). *)
Definition harmless (c : byte) : bool := (32 <=? N_of_byte c) && negb (beq c quote) && negb (beq c backslash).
Fixpoint printable (v : content) : bool :=
  match v with
  | CScalar s =>
    match s with
    | SNull | SBool _ => true
    | SInt I128 _ => false
    | SInt k z => fits (if signed k then I32 else U32) z
    | SFloat _ | SDouble _ => false
    | SString s => forallb harmless s
    end
  | CObj gs => forallb (fun kv => forallb harmless (fst kv) && printable (snd kv)) gs
  | CArr vs => forallb printable vs
  end.
