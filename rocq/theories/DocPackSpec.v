(** The content of a document, apart from how it is laid out. *)
From Verif Require Import Bytes Outcome TapeModel TapeSpec DocPackModel.
Local Open Scope N_scope.

Inductive content := CScalar (s : scalar) | CObj (fs : list (list byte * content)) | CArr (ls : list content).

(** The tree [t] on the tape of [d] has the content [v]. *)
Inductive holds (d : doc) : tree -> content -> Prop :=
| holds_leaf i s : reads d i s -> holds d (TLeaf i) (CScalar s)
| holds_obj fs gs : fields_hold d fs gs -> holds d (TObj fs) (CObj gs)
| holds_arr ts vs : elements_hold d ts vs -> holds d (TArr ts) (CArr vs)
with fields_hold (d : doc) : list (nat * tree) -> list (list byte * content) -> Prop :=
| no_fields : fields_hold d [] []
| more_fields i t fs k v gs : reads d i (SString k) -> holds d t v -> fields_hold d fs gs -> fields_hold d ((i, t) :: fs) ((k, v) :: gs)
with elements_hold (d : doc) : list tree -> list content -> Prop :=
| no_elements : elements_hold d [] []
| more_elements t ts v vs : holds d t v -> elements_hold d ts vs -> elements_hold d (t :: ts) (v :: vs).

(** The same content with every integer as one of 64 bits, unsigned when it is not negative. *)
Definition as64 (s : scalar) : scalar :=
  match s with SInt _ z => if (0 <=? z)%Z then SInt U64 z else SInt I64 z | _ => s end.
Fixpoint all64 (v : content) : content :=
  match v with
  | CScalar s => CScalar (as64 s)
  | CObj gs => CObj (map (fun kv => (fst kv, all64 (snd kv))) gs)
  | CArr vs => CArr (map all64 vs)
  end.

(** What can be stored: no floating point number (not modelled), no 128 bit integer, no integer of 2^56 or more, texts,
    objects and arrays of less than 2^32 characters, fields and elements. *)
Definition small {A} (l : list A) : bool := N.of_nat (length l) <? 2 ^ 32.
Fixpoint storable (v : content) : bool :=
  match v with
  | CScalar s =>
    match s with
    | SNull | SBool _ => true
    | SInt I128 _ => false
    | SInt _ z => (z <? 2 ^ 56)%Z
    | SFloat _ | SDouble _ => false
    | SString s => small s
    end
  | CObj gs => small gs && forallb (fun kv => small (fst kv) && storable (snd kv)) gs
  | CArr vs => small vs && forallb storable vs
  end.
(** The room its texts take. *)
Fixpoint text_size (v : content) : N :=
  match v with
  | CScalar (SString s) => N.of_nat (length s) + 5
  | CScalar _ => 0
  | CObj gs => fold_right (fun kv n => N.of_nat (length (fst kv)) + 5 + text_size (snd kv) + n) 0 gs
  | CArr vs => fold_right (fun v n => text_size v + n) 0 vs
  end.
