(** Documents given by Python and handed back to it: integration/python/sql/convert.cpp 45-99 (to documents), 101-149 (back);
    components/document/impl/document.cpp 23 ([next_element]: the position behind the last value),
    components/document/container/json_object.cpp 61-63 (a key that is there is not set again), json_array.cpp 23-29.
    Simplifications: a position of the tape holds a whole value; keys of objects are kept as the text they have when they are set (the
    tape only grows); the fields of an object are kept in the order they were set; the compiler may build the key or the value of a
    field first ([key_first]); floating point numbers and the encoding of bytes by base64 are parameters. *)
From Verif Require Import Bytes Outcome ByteOrd.
Local Open Scope Z_scope.

Section Python.
Context {F : Type} (base64 : list byte -> list byte) (key_first : bool).

Inductive py :=
| PNone | PBool (b : bool) | PInt (z : Z) | PFloat (f : F) | PBytes (b : list byte) | PStr (s : list byte)
| PList (l : list py) | PTuple (l : list py) | PDict (l : list (py * py)).
Inductive value := VBool (b : bool) | VInt (z : Z) | VFloat (f : F) | VStr (s : list byte).
Inductive node := Mut (position : nat) | Arr (l : list node) | Obj (l : list (list byte * node)).
Definition tape := list value.

(** 45-58 [build_primitive]; the cast of a number that does not fit throws where nothing may be thrown: the process ends *)
Definition build_primitive (t : tape) (o : py) : res tape :=
  match o with
  | PBool b => Ok (t ++ [VBool b])
  | PInt z => if (- 2 ^ 63 <=? z) && (z <? 2 ^ 63) then Ok (t ++ [VInt z]) else Err UB
  | PFloat f => Ok (t ++ [VFloat f])
  | PBytes b => Ok (t ++ [VStr (base64 b)])
  | PStr s => Ok (t ++ [VStr s])
  | _ => Ok t
  end.
(** [json_object::set]: the key is read; [emplace] *)
Definition set_field (t : tape) (fields : list (list byte * node)) (k v : node) : res (list (list byte * node)) :=
  match k with
  | Mut p =>
    match nth_error t p with
    | Some (VStr s) => Ok (if existsb (fun f => beqb (fst f) s) fields then fields else fields ++ [(s, v)])
    | Some _ => Err Throw
    | None => Err UB
    end
  | _ => Err UB
  end.
(** 60-84 [build_index] *)
Fixpoint build (o : py) (t : tape) {struct o} : res (node * tape) :=
  match o with
  | PDict l =>
    (fix fields (l : list (py * py)) (acc : list (list byte * node)) (t : tape) : res (node * tape) :=
       match l with
       | [] => Ok (Obj acc, t)
       | (k, v) :: r =>
         if key_first
         then do '(kn, t) <- build k t; do '(vn, t) <- build v t; do acc <- set_field t acc kn vn; fields r acc t
         else do '(vn, t) <- build v t; do '(kn, t) <- build k t; do acc <- set_field t acc kn vn; fields r acc t
       end) l [] t
  | PList l | PTuple l =>
    (fix items (l : list py) (acc : list node) (t : tape) : res (node * tape) :=
       match l with
       | [] => Ok (Arr acc, t)
       | x :: r => do '(n, t) <- build x t; items r (acc ++ [n]) t
       end) l [] t
  | _ => let p := length t in do t <- build_primitive t o; Ok (Mut p, t)
  end.
(** 86-95 [to_document] *)
Definition to_document (l : list (py * py)) : res (node * tape) := build (PDict l) [].

(** 101-144 [from_document]; a position behind the end of the tape is not to be read *)
Definition from_element (v : value) : py :=
  match v with VBool b => PBool b | VInt z => PInt z | VFloat f => PFloat f | VStr s => PStr s end.
Fixpoint from_document (t : tape) (n : node) {struct n} : res py :=
  match n with
  | Mut p => match nth_error t p with Some v => Ok (from_element v) | None => Err UB end
  | Arr l =>
    (fix items (l : list node) : res py :=
       match l with
       | [] => Ok (PList [])
       | x :: r => do y <- from_document t x; do ys <- items r; match ys with PList ys => Ok (PList (y :: ys)) | _ => Err UB end
       end) l
  | Obj l =>
    (fix fields (l : list (list byte * node)) : res py :=
       match l with
       | [] => Ok (PDict [])
       | (k, x) :: r => do y <- from_document t x; do ys <- fields r;
         match ys with PDict ys => Ok (PDict ((PStr k, y) :: ys)) | _ => Err UB end
       end) l
  end.
End Python.
Arguments py : clear implicits.
Arguments value : clear implicits.
Arguments tape : clear implicits.
