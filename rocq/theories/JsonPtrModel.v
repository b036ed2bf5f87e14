(** Model of the path part of components/document/document.cpp: decoding of one key
    (922-948 unescape_key_), splitting of a pointer into keys (string_splitter.cpp, 385-394) and
    splitting of the last key (find_container_key, 421-434). *)
From Verif Require Import Bytes Outcome GlobModel.

Definition tilde : byte := ch 126.
Definition slash : byte := ch 47.
Definition zero_c : byte := ch 48.
Definition one_c : byte := ch 49.

(** std::string::find(c, from): position counted from the start of [s]; [None] is npos *)
Fixpoint find_char (c : byte) (s : list byte) : option nat :=
  match s with
  | [] => None
  | x :: r => if beq x c then Some O else match find_char c r with Some i => Some (S i) | None => None end
  end.
Definition find_from (c : byte) (s : list byte) (from : nat) : option nat :=
  match find_char c (skipn from s) with Some i => Some (from + i)%nat | None => None end.

(** std::string::replace(pos, 2, one character) *)
Definition replace2 (s : list byte) (pos : nat) (c : byte) : list byte :=
  firstn pos s ++ c :: skipn (pos + 2) s.

(** document.cpp:930-942, the do-while loop.  [None] is INVALID_JSON_POINTER.  Reading the character
    after the last one yields the terminating NUL (std::string::operator[] at size()), which is
    neither '0' nor '1'. *)
Fixpoint unescape_loop (fuel : nat) (s : list byte) (escape : nat) : res (option (list byte)) :=
  match fuel with
  | O => Err Diverge
  | S f =>
    match nth_error s (escape + 1) with
    | Some c =>
      if beq c zero_c then unescape_next f (replace2 s escape tilde) escape
      else if beq c one_c then unescape_next f (replace2 s escape slash) escape
      else Ok None
    | None => Ok None
    end
  end
with unescape_next (fuel : nat) (s : list byte) (escape : nat) : res (option (list byte)) :=
  match fuel with
  | O => Err Diverge
  | S f =>
    match find_from tilde s (escape + 1) with
    | Some e => unescape_loop f s e
    | None => Ok (Some s)
    end
  end.

(** document.cpp:922-948: the decoded key, or [None] for INVALID_JSON_POINTER *)
Definition unescape_key (key : list byte) : res (option (list byte)) :=
  match find_char tilde key with
  | Some e => unescape_loop (2 * length key + 2) key e
  | None => Ok (Some key)
  end.

(** string_splitter.cpp:21-37: the pieces between separators *)
Fixpoint split (c : byte) (s : list byte) : list (list byte) :=
  match s with
  | [] => [[]]
  | x :: r => if beq x c then [] :: split c r
              else match split c r with k :: ks => (x :: k) :: ks | [] => [[x]] end
  end.

(** document.cpp:388-395 (find_node_const): the raw keys of a pointer, none for the empty pointer *)
Definition raw_keys (ptr : list byte) : list (list byte) :=
  match ptr with
  | [] => []
  | x :: r => split slash (if beq x slash then r else ptr)
  end.

(** std::string_view::find_last_of *)
Fixpoint find_last (c : byte) (s : list byte) : option nat :=
  match s with
  | [] => None
  | x :: r => match find_last c r with
              | Some i => Some (S i)
              | None => if beq x c then Some O else None
              end
  end.

(** document.cpp:421-434 (find_container_key): pointer of the container and raw last key.
    [at(0)] of an empty pointer throws. *)
Definition container_split (ptr : list byte) : res (list byte * list byte) :=
  let pos := match find_last slash ptr with Some i => i | None => O end in
  match nth_error ptr pos with
  | None => Err Throw
  | Some c => Ok (firstn pos ptr, if beq c slash then skipn (pos + 1) ptr else ptr)
  end.
