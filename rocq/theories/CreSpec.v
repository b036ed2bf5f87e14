(** The columns a CREATE TABLE declares and the collections that names stand for. *)
From Verif Require Import Bytes Outcome CreModel.
Local Open Scope Z_scope.

(** The types that have a name of their own. *)
Inductive called : list byte -> kind -> Prop :=
| c_bool : called (str "bool") BOOLEAN
| c_tinyint : called (str "tinyint") TINYINT
| c_int2 : called (str "int2") SMALLINT
| c_int4 : called (str "int4") INTEGER
| c_int8 : called (str "int8_t") BIGINT
| c_hugeint : called (str "hugeint") HUGEINT
| c_utinyint : called (str "utinyint") UTINYINT
| c_usmallint : called (str "usmallint") USMALLINT
| c_uinteger : called (str "uinteger") UINTEGER
| c_uint : called (str "uint") UINTEGER
| c_ubigint : called (str "ubigint") UBIGINT
| c_uhugeint : called (str "uhugeint") UHUGEINT
| c_float4 : called (str "float4") FLOAT
| c_float8 : called (str "float8") DOUBLE
| c_double : called (str "double") DOUBLE
| c_bit : called (str "bit") BIT
| c_sec : called (str "timestamp_sec") TIMESTAMP_SEC
| c_ms : called (str "timestamp_ms") TIMESTAMP_MS
| c_us : called (str "timestamp_us") TIMESTAMP_US
| c_ns : called (str "timestamp_ns") TIMESTAMP_NS
| c_blob : called (str "blob") BLOB
| c_pointer : called (str "pointer") POINTER
| c_uuid : called (str "uuid") UUID
| c_string : called (str "string") STRING_LITERAL.
(** The type that is meant. *)
Inductive means : written -> ltype -> Prop :=
| m_int : means Int (Kind INTEGER)
| m_smallint : means Smallint (Kind SMALLINT)
| m_bigint : means Bigint (Kind BIGINT)
| m_real : means Real (Kind FLOAT)
| m_float : means (Float None) (Kind FLOAT)
| m_single p : 1 <= p <= 24 -> means (Float (Some p)) (Kind FLOAT)
| m_double p : 25 <= p <= 53 -> means (Float (Some p)) (Kind DOUBLE)
| m_precise : means Double_precision (Kind DOUBLE)
| m_decimal w s : 0 <= s <= w -> w <= 255 -> means (Decimal [MInt w; MInt s]) (Decimal_of (Z.to_N w) (Z.to_N s))
| m_boolean : means Boolean (Kind BOOLEAN)
| m_bit : means (Bit false) (Kind BIT)
| m_named n k : called n k -> means (Named n [] []) (Kind k).
(** Arrays of arrays; a bound left out: of any length. *)
Fixpoint dimensions (t : ltype) (bounds : list Z) : ltype :=
  match bounds with
  | [] => t
  | b :: r => if b <? 0 then List_of (dimensions t r) else Array_of (dimensions t r) (Z.to_N b)
  end.
(** The columns declared, in order. *)
Inductive declares : list element -> list (list byte * ltype) -> Prop :=
| d_nil : declares [] []
| d_col n w t bs els cs : means w t -> declares els cs -> declares (Column n w bs :: els) ((n, dimensions t bs) :: cs).

(** The guard: at most one bound, which is written, and within the numbers of the parser. *)
Definition one_bound (e : element) : Prop :=
  match e with Column _ _ [] => True | Column _ _ [b] => 0 <= b < 2 ^ 31 | _ => False end.
(** ... for statements that are to be refused: types without bounds, plain names without modifiers, decimals in range *)
Definition plain (e : element) : Prop :=
  match e with
  | Column _ (Named n r ms) bs => r = [] /\ ms = [] /\ n <> str "pg_catalog" /\ n <> str "numeric" /\ bs = []
  | Column _ (Decimal [MInt w; MInt s]) bs => 0 <= s <= w /\ w <= 255 /\ bs = []
  | Column _ _ bs => bs = []
  | Other => False
  end.

(** The collection a name with dots stands for. *)
Definition stands_for (q : list (list byte)) (f : full_name) : Prop :=
  exists u d s, f = Full u d s (last q []) /\
    match q with
    | [_] => u = [] /\ d = [] /\ s = []
    | [x; _] => u = [] /\ d = x /\ s = []
    | [x; y; _] => u = [] /\ d = x /\ s = y
    | [x; y; z; _] => u = x /\ d = y /\ s = z
    | _ => False
    end.
