(** Words of SQL statements: keywords and identifiers. components/sql/parser/keyword.cpp 24-74 ([ScanKeywordLookup]), kwlist.h 29-504 (the
    keywords), scansup.cpp 6-65 ([NAMEDATALEN] is 64, scansup.h 25), pg_functions.cpp 172-192, 258, and the rules of scan.l 718-729 (quoted
    identifiers) and 956-979 (words).
    Simplifications: a word is the text the scanner has found, of bytes other than zero; [high] is kept as the place behind it; the copy in
    [buf] (scansup.cpp 56-58) is not used; the values and categories of keywords belong to the grammar. *)
From Verif Require Import Bytes Outcome ByteOrd.

(** kwlist.h *)
Definition keywords : list (list byte) := map str
  ["abort"; "absolute"; "access"; "action"; "active"; "add"; "admin"; "after"; "aggregate"; "all"; "also"; "alter"; "always"; "analyse";
   "analyze"; "and"; "any"; "array"; "as"; "asc"; "assertion"; "assignment"; "asymmetric"; "at"; "attribute"; "authorization";
   "backward"; "before"; "begin"; "between"; "bigint"; "binary"; "bit"; "boolean"; "both"; "by"; "cache"; "called"; "cascade";
   "cascaded"; "case"; "cast"; "catalog"; "chain"; "char"; "character"; "characteristics"; "check"; "checkpoint"; "class"; "close";
   "cluster"; "coalesce"; "collate"; "collation"; "column"; "comment"; "comments"; "commit"; "committed"; "concurrency";
   "concurrently"; "configuration"; "connection"; "constraint"; "constraints"; "contains"; "content"; "continue"; "conversion"; "copy";
   "cost"; "cpu_rate_limit"; "cpuset"; "create"; "createexttable"; "cross"; "csv"; "cube"; "current"; "current_catalog";
   "current_date"; "current_role"; "current_schema"; "current_time"; "current_timestamp"; "current_user"; "cursor"; "cycle"; "data";
   "database"; "day"; "deallocate"; "dec"; "decimal"; "declare"; "decode"; "default"; "defaults"; "deferrable"; "deferred"; "definer";
   "delete"; "delimiter"; "delimiters"; "deny"; "desc"; "dictionary"; "disable"; "discard"; "distinct"; "distributed"; "do";
   "document"; "domain"; "double"; "drop"; "dxl"; "each"; "else"; "enable"; "encoding"; "encrypted"; "end"; "endpoint"; "enum";
   "errors"; "escape"; "event"; "every"; "except"; "exchange"; "exclude"; "excluding"; "exclusive"; "execute"; "exists"; "expand";
   "explain"; "extension"; "external"; "extract"; "false"; "family"; "fetch"; "fields"; "fill"; "filter"; "first"; "float";
   "following"; "for"; "force"; "foreign"; "format"; "forward"; "freeze"; "from"; "full"; "fullscan"; "function"; "functions";
   "global"; "grant"; "granted"; "greatest"; "group"; "group_id"; "grouping"; "handler"; "hash"; "having"; "header"; "hold"; "host";
   "hour"; "identity"; "if"; "ignore"; "ilike"; "immediate"; "immutable"; "implicit"; "in"; "including"; "inclusive"; "increment";
   "index"; "indexes"; "inherit"; "inherits"; "initially"; "initplan"; "inline"; "inner"; "inout"; "input"; "insensitive"; "insert";
   "instead"; "int"; "integer"; "intersect"; "interval"; "into"; "invoker"; "is"; "isnull"; "isolation"; "join"; "key"; "label";
   "language"; "large"; "last"; "lateral"; "lc_collate"; "lc_ctype"; "leading"; "leakproof"; "least"; "left"; "level"; "like"; "limit";
   "list"; "listen"; "load"; "local"; "localtime"; "localtimestamp"; "location"; "lock"; "log"; "mapping"; "master"; "match";
   "materialized"; "maxvalue"; "median"; "memory_limit"; "memory_shared_quota"; "memory_spill_ratio"; "minute"; "minvalue"; "missing";
   "mode"; "modifies"; "month"; "move"; "name"; "names"; "national"; "natural"; "nchar"; "newline"; "next"; "no"; "nocreateexttable";
   "none"; "noovercommit"; "not"; "nothing"; "notify"; "notnull"; "nowait"; "null"; "nullif"; "nulls"; "numeric"; "object"; "of";
   "off"; "offset"; "oids"; "on"; "only"; "operator"; "option"; "options"; "or"; "order"; "ordered"; "ordinality"; "others"; "out";
   "outer"; "over"; "overcommit"; "overlaps"; "overlay"; "owned"; "owner"; "parallel"; "parser"; "partial"; "partition"; "partitions";
   "passing"; "password"; "percent"; "persistently"; "placing"; "plans"; "position"; "preceding"; "precision"; "prepare"; "prepared";
   "preserve"; "primary"; "prior"; "privileges"; "procedural"; "procedure"; "program"; "protocol"; "queue"; "quote"; "randomly";
   "range"; "read"; "readable"; "reads"; "real"; "reassign"; "recheck"; "recursive"; "ref"; "references"; "refresh"; "reindex";
   "reject"; "relative"; "release"; "rename"; "repeatable"; "replace"; "replica"; "replicated"; "reset"; "resource"; "restart";
   "restrict"; "retrieve"; "returning"; "returns"; "revoke"; "right"; "role"; "rollback"; "rollup"; "rootpartition"; "row"; "rows";
   "rule"; "savepoint"; "scatter"; "schema"; "scroll"; "search"; "second"; "security"; "segment"; "segments"; "select"; "sequence";
   "sequences"; "serializable"; "server"; "session"; "session_user"; "set"; "setof"; "sets"; "share"; "show"; "shrink"; "similar";
   "simple"; "smallint"; "snapshot"; "some"; "split"; "sql"; "stable"; "standalone"; "start"; "statement"; "statistics"; "stdin";
   "stdout"; "storage"; "strict"; "strip"; "subpartition"; "substring"; "symmetric"; "sysid"; "system"; "table"; "tables";
   "tablespace"; "temp"; "template"; "temporary"; "text"; "then"; "threshold"; "ties"; "time"; "timestamp"; "to"; "trailing";
   "transaction"; "treat"; "trigger"; "trim"; "true"; "truncate"; "trusted"; "type"; "types"; "unbounded"; "uncommitted";
   "unencrypted"; "union"; "unique"; "unknown"; "unlisten"; "unlogged"; "until"; "update"; "user"; "using"; "vacuum"; "valid";
   "validate"; "validation"; "validator"; "value"; "values"; "varchar"; "variadic"; "varying"; "verbose"; "version"; "view"; "views";
   "volatile"; "web"; "when"; "where"; "whitespace"; "window"; "with"; "within"; "without"; "work"; "wrapper"; "writable"; "write";
   "xml"; "xmlattributes"; "xmlconcat"; "xmlelement"; "xmlexists"; "xmlforest"; "xmlparse"; "xmlpi"; "xmlroot"; "xmlserialize"; "year";
   "yes"; "yezzey"; "zone"]%string.

(** keyword.cpp 45-51, scansup.cpp 33-39 *)
Definition lower (c : byte) : byte :=
  let n := N_of_byte c in if (65 <=? n)%N && (n <=? 90)%N then byte_of_N (n + 32)%N else c.
(** keyword.cpp 57-73 *)
Fixpoint search (kws : list (list byte)) (steps low high : nat) (word : list byte) : res (option (list byte)) :=
  match steps with
  | O => Err Diverge
  | S n =>
    if (low <? high)%nat then
      let middle := (low + (high - 1 - low) / 2)%nat in
      match nth_error kws middle with
      | None => Err UB
      | Some k =>
        match bcmp k word with
        | Eq => Ok (Some k)
        | Lt => search kws n (S middle) high word
        | Gt => search kws n low middle word
        end
      end
    else Ok None
  end.
Definition name_length : nat := 64.
(** 30-39 *)
Definition keyword_lookup (text : list byte) : res (option (list byte)) :=
  if (name_length <=? length text)%nat then Ok None
  else search keywords (S (length keywords)) 0 (length keywords) (map lower text).

(** pg_functions.cpp 172-192 *)
Definition mblen (c : byte) : nat :=
  let n := N_of_byte c in
  if (N.land n 128 =? 0)%N then 1 else if (N.land n 224 =? 192)%N then 2 else if (N.land n 240 =? 224)%N then 3
  else if (N.land n 248 =? 240)%N then 4 else 1.
(** scansup.cpp 6-26 *)
Fixpoint clip (steps : nat) (s : list byte) (limit clen : nat) : nat :=
  match steps, s with
  | S n, c :: _ =>
    if (N_of_byte c =? 0)%N then clen
    else let l := mblen c in
      if (limit <? clen + l)%nat then clen
      else if (clen + l =? limit)%nat then (clen + l)%nat
      else clip n (skipn l s) limit (clen + l)
  | _, _ => clen
  end.
(** 48-65 *)
Definition truncate (s : list byte) : list byte :=
  if (name_length <=? length s)%nat then firstn (clip (length s) s (name_length - 1) 0) s else s.
(** 28-46 *)
Definition downcase_truncate (s : list byte) : list byte := truncate (map lower s).

Inductive token := Keyword (k : list byte) | Ident (name : list byte).
(** scan.l 956-979 *)
Definition word (text : list byte) : res token :=
  do k <- keyword_lookup text;
  match k with Some k => Ok (Keyword k) | None => Ok (Ident (downcase_truncate text)) end.
(** scan.l 718-729, of the text between the quotes; without text it is an error *)
Definition quoted (text : list byte) : res token :=
  match text with [] => Err Throw | _ => Ok (Ident (truncate text)) end.
