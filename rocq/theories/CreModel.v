(** CREATE TABLE, DROP TABLE and DROP INDEX from the names and types as written to the statement for the dispatcher:
    components/sql/parser/gram.y 4288-4293 (elements of a table), 7733-7815 (DROP and its names), 13039-13110 (arrays and kinds of
    types), 13138-13247 (names of types, numbers), 13252-13429 (bits, characters, times), 15460-15498 (name of a table), 16928-16939;
    components/sql/transformer/impl/transform_table.cpp 13-157; components/sql/transformer/utils.hpp 32-39, 92-128;
    components/base/collection_full_name.hpp 12-37.
    Simplifications: the modifiers of a type are constants; options of columns (NOT NULL, DEFAULT, ...) are left out, the code does
    not look at them; elements of a table other than columns are one case; lengths, precisions and character sets of
    characters, bits, times and intervals are left out, the code does not look at them. *)
From Verif Require Import Bytes Outcome ByteOrd.
Local Open Scope Z_scope.

Inductive kind :=
| BOOLEAN | TINYINT | SMALLINT | INTEGER | BIGINT | HUGEINT | UTINYINT | USMALLINT | UINTEGER | UBIGINT | UHUGEINT | FLOAT | DOUBLE
| BIT | DECIMAL | TIMESTAMP_SEC | TIMESTAMP_MS | TIMESTAMP_US | TIMESTAMP_NS | BLOB | POINTER | UUID | STRING_LITERAL | NA.
(** [complex_logical_type] *)
Inductive ltype := Kind (k : kind) | Decimal_of (width scale : N) | Array_of (t : ltype) (size : N) | List_of (t : ltype).

(** ** What is written *)
Inductive modifier := MInt (z : Z) | MOther.
Inductive written :=
| Int | Smallint | Bigint | Real | Float (precision : option Z) | Double_precision | Decimal (ms : list modifier) | Boolean
| Bit (varying : bool)
| Character (varying : bool) | Timestamp (zone : bool) | Time (zone : bool) | Interval
| Named (first : list byte) (rest : list (list byte)) (ms : list modifier).
Inductive element :=
| Column (name : list byte) (w : written) (bounds : list Z)    (* -1: a bound left out *)
| Other.                                                       (* constraints, LIKE, storage *)

(** ** The grammar *)
Record type_name := { names : list (list byte); typmods : list modifier }.
Definition pg_catalog : list byte := str "pg_catalog".
Definition system (n : list byte) (ms : list modifier) : type_name := {| names := [pg_catalog; n]; typmods := ms |}.
Definition parse (w : written) : res type_name :=
  match w with
  | Int => Ok (system (str "int4") [])
  | Smallint => Ok (system (str "int2") [])
  | Bigint => Ok (system (str "int8_t") [])
  | Real => Ok (system (str "float4") [])
  | Float None => Ok (system (str "float4") [])
  | Float (Some p) =>
    if p <? 1 then Err Throw else if p <=? 24 then Ok (system (str "float4") [])
    else if p <=? 53 then Ok (system (str "float8") []) else Err Throw
  | Double_precision => Ok (system (str "float8") [])
  | Decimal ms => Ok (system (str "numeric") ms)
  | Boolean => Ok (system (str "bool") [])
  | Bit varying => Ok (system (if varying then str "varbit" else str "bit") (if varying then [] else [MInt 1]))
  | Character varying => Ok (system (if varying then str "varchar" else str "bpchar") [])
  | Timestamp zone => Ok (system (if zone then str "timestamptz" else str "timestamp") [])
  | Time zone => Ok (system (if zone then str "timetz" else str "time") [])
  | Interval => Ok (system (str "interval") [])
  | Named n r ms => Ok {| names := n :: r; typmods := ms |}
  end.
(** a name with dots: uid, database, schema, collection; more than four parts set none of them (15489-15495) *)
Record full_name := Full { uid : list byte; database : list byte; schema : list byte; collection : list byte }.
Definition range_var (q : list (list byte)) : full_name :=
  match q with
  | [t] => Full [] [] [] t
  | [d; t] => Full [] d [] t
  | [d; s; t] => Full [] d s t
  | [u; d; s; t] => Full u d s t
  | _ => Full [] [] [] []
  end.

(** ** The transformer *)
(** utils.hpp 92-128 *)
Definition lookup : list (list byte * kind) :=
  [(str "int2", SMALLINT); (str "int4", INTEGER); (str "int8_t", BIGINT); (str "bool", BOOLEAN); (str "float4", FLOAT);
   (str "float8", DOUBLE); (str "bit", BIT); (str "numeric", DECIMAL); (str "double", DOUBLE); (str "tinyint", TINYINT);
   (str "hugeint", HUGEINT); (str "timestamp_sec", TIMESTAMP_SEC); (str "timestamp_ms", TIMESTAMP_MS);
   (str "timestamp_us", TIMESTAMP_US); (str "timestamp_ns", TIMESTAMP_NS); (str "blob", BLOB); (str "utinyint", UTINYINT);
   (str "usmallint", USMALLINT); (str "uinteger", UINTEGER); (str "uint", UINTEGER); (str "ubigint", UBIGINT);
   (str "uhugeint", UHUGEINT); (str "pointer", POINTER); (str "uuid", UUID); (str "string", STRING_LITERAL)].
Definition get_logical_type (n : list byte) : kind :=
  match find (fun e => beqb n (fst e)) lookup with Some e => snd e | None => NA end.
(** [static_cast<uint8_t>] and the conversion of an [int] to [size_t] *)
Definition u8 (z : Z) : N := Z.to_N (z mod 256).
Definition size_of (z : Z) : N := Z.to_N (z mod 2 ^ 64).
(** transform_table.cpp 13-42 [get_type]; the second name of a list of one is behind its end *)
Definition get_type (t : type_name) (bounds : list Z) : res ltype :=
  do column <-
    match names t with
    | [] => Err UB
    | n :: r =>
      if beqb n pg_catalog then
        match r with
        | [] => Err UB
        | k :: _ =>
          match get_logical_type k with
          | DECIMAL =>
            match typmods t with
            | [MInt width; MInt scale] => Ok (Decimal_of (u8 width) (u8 scale))
            | _ => Err Throw
            end
          | k => Ok (Kind k)
          end
        end
      else Ok (Kind (get_logical_type n))
    end;
  match bounds with
  | [] => Ok column
  | b :: _ => Ok (Array_of column (size_of b))
  end.
(** 55-79 [transform_create_table]; an element that is not a column is read as if it were *)
Fixpoint columns_of (els : list element) : res (list (list byte * ltype)) :=
  match els with
  | [] => Ok []
  | Other :: _ => Err UB
  | Column n w bounds :: r =>
    do t <- parse w;
    do c <- get_type t bounds;
    match c with
    | Kind NA => Err Throw
    | _ => do cs <- columns_of r; Ok ((n, c) :: cs)
    end
  end.
Definition create_table (q : list (list byte)) (els : list element) : res (full_name * list (list byte * ltype)) :=
  do cs <- columns_of els; Ok (range_var q, cs).
(** 81-157 [transform_drop]: of the objects named the first one *)
Definition drop_table (objects : list (list (list byte))) : res full_name :=
  match objects with
  | [] => Err UB
  | q :: _ =>
    match q with
    | [t] => Ok (Full [] [] [] t)
    | [d; t] => Ok (Full [] d [] t)
    | [d; s; t] => Ok (Full [] d s t)
    | [u; d; s; t] => Ok (Full u d s t)
    | _ => Err Throw
    end
  end.
Definition drop_index (objects : list (list (list byte))) : res (full_name * list byte) :=
  match objects with
  | [] => Err UB
  | q :: _ =>
    match q with
    | [d; t; i] => Ok (Full [] d [] t, i)
    | [d; s; t; i] => Ok (Full [] d s t, i)
    | [u; d; s; t; i] => Ok (Full u d s t, i)
    | _ => Err Throw
    end
  end.
