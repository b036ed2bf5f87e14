(** What Python gets back. *)
From Verif Require Import Bytes Outcome PyModel.
Local Open Scope Z_scope.

(** The same; tuples as lists and bytes as their text in base64. *)
Fixpoint given_back {F} (base64 : list byte -> list byte) (o : py F) : py F :=
  match o with
  | PBytes b => PStr (base64 b)
  | PList l | PTuple l => PList (map (given_back base64) l)
  | PDict l => PDict (map (fun f => (fst f, given_back base64 (snd f))) l)
  | _ => o
  end.
(** The guard: no None, integers of 64 bits, keys that are strings and differ. *)
Inductive storable {F} : py F -> Prop :=
| s_bool b : storable (PBool b)
| s_int z : - 2 ^ 63 <= z < 2 ^ 63 -> storable (PInt z)
| s_float f : storable (PFloat f)
| s_bytes b : storable (PBytes b)
| s_str s : storable (PStr s)
| s_list l : Forall storable l -> storable (PList l)
| s_tuple l : Forall storable l -> storable (PTuple l)
| s_dict l ks : map fst l = map PStr ks -> NoDup ks -> Forall (fun f => storable (snd f)) l -> storable (PDict l).
