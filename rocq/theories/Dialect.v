(** Model of package dialect. *)
From Coq Require Import ZArith List Bool String.
From Verif Require Import Base.
Import ListNotations.
Open Scope Z_scope.

(** dialect/dialect.go:3-7 (interface Dialect). *)
Record dialect := mkDialect {
  is_start : rune -> bool;      (* IsIdentifierStart *)
  is_part  : rune -> bool;      (* IsIdentifierPart *)
  is_delim : rune -> bool       (* IsDelimitedIdentifierStart *)
}.

Definition is_letter (r : rune) : bool :=
  ((97 <=? r) && (r <=? 122)) || ((65 <=? r) && (r <=? 90)).
Definition is_digit (r : rune) : bool := (48 <=? r) && (r <=? 57).

(** dialect/dialect.go:9-22 (GenericSQLDialect). *)
Definition generic : dialect := mkDialect
  (fun r => is_letter r || (r =? 64))
  (fun r => is_letter r || is_digit r || (r =? 64) || (r =? 95))
  (fun r => r =? 34).

(** dialect/postgres.go:3-16 (PostgresqlDialect). *)
Definition postgres : dialect := mkDialect
  (fun r => is_letter r || (r =? 95))
  (fun r => is_letter r || is_digit r || (r =? 36) || (r =? 95))
  (fun r => (r =? 34) || (r =? 96)).

(** dialect/mysql.go:3-10 (MySQLDialect embeds GenericSQLDialect). *)
Definition mysql : dialect := mkDialect
  (is_start generic)
  (is_part generic)
  (fun r => (r =? 34) || (r =? 96)).

(** dialect/keywords.go:7-355 (the Keywords set; values of the constants at
    388-736). *)
Definition keywords : list gostring := map gs [
  "ABS"; "ADD"; "ASC"; "ALL"; "ALLOCATE"; "ALTER"; "AND"; "ANY"; "ARE";
  "ARRAY"; "ARRAY_AGG"; "ARRAY_MAX_CARDINALITY"; "AS"; "ASENSITIVE";
  "ASYMMETRIC"; "AT"; "ATOMIC"; "AUTHORIZATION"; "AVG"; "BEGIN";
  "BEGIN_FRAME"; "BEGIN_PARTITION"; "BETWEEN"; "BIGINT"; "BINARY"; "BLOB";
  "BOOLEAN"; "BOTH"; "BY"; "BYTEA"; "CALL"; "CALLED"; "CARDINALITY";
  "CASCADED"; "CASE"; "CAST"; "CEIL"; "CEILING"; "CHR"; "CHAR";
  "CHAR_LENGTH"; "CHARACTER"; "CHARACTER_LENGTH"; "CHECK"; "CLOB"; "CLOSE";
  "COALESCE"; "COLLATE"; "COLLECT"; "COLUMN"; "COMMIT"; "CONDITION";
  "CONNECT"; "CONSTRAINT"; "CONTAINS"; "CONVERT"; "COPY"; "CORR";
  "CORRESPONDING"; "COUNT"; "COVAR_POP"; "COVAR_SAMP"; "CREATE"; "CROSS";
  "CSV"; "CUBE"; "CUME_DIST"; "CURRENT"; "CURRENT_CATALOG"; "CURRENT_DATE";
  "CURRENT_DEFAULT_TRANSFORM_GROUP"; "CURRENT_PATH"; "CURRENT_ROLE";
  "CURRENT_ROW"; "CURRENT_SCHEMA"; "CURRENT_TIME"; "CURRENT_TIMESTAMP";
  "CURRENT_TRANSFORM_GROUP_FOR_TYPE"; "CURRENT_USER"; "CURSOR"; "CYCLE";
  "DATE"; "DAY"; "DEALLOCATE"; "DEC"; "DECIMAL"; "DECLARE"; "DEFAULT";
  "DELETE"; "DENSE_RANK"; "DEREF"; "DESC"; "DESCRIBE"; "DETERMINISTIC";
  "DISCONNECT"; "DISTINCT"; "DOUBLE"; "DROP"; "DYNAMIC"; "EACH"; "ELEMENT";
  "ELSE"; "END"; "END_FRAME"; "END_PARTITION"; "EQUALS"; "ESCAPE"; "EVERY";
  "EXCEPT"; "EXEC"; "EXECUTE"; "EXISTS"; "EXP"; "EXTERNAL"; "EXTRACT";
  "FALSE"; "FETCH"; "FILTER"; "FIRST_VALUE"; "FLOAT"; "FLOOR"; "FOLLOWING";
  "FOR"; "FOREIGN"; "FRAME_ROW"; "FREE"; "FROM"; "FULL"; "FUNCTION";
  "FUSION"; "GET"; "GLOBAL"; "GRANT"; "GROUP"; "GROUPING"; "GROUPS";
  "HAVING"; "HEADER"; "HOLD"; "HOUR"; "IDENTITY"; "IN"; "INDICATOR"; "INNER";
  "INOUT"; "INSENSITIVE"; "INSERT"; "INT"; "INTEGER"; "INTERSECT";
  "INTERSECTION"; "INTERVAL"; "INTO"; "IS"; "JOIN"; "KEY"; "LAG"; "LANGUAGE";
  "LARGE"; "LAST_VALUE"; "LATERAL"; "LEAD"; "LEADING"; "LEFT"; "LIKE";
  "LIKE_REGEX"; "LIMIT"; "LN"; "LOCAL"; "LOCALTIME"; "LOCALTIMESTAMP";
  "LOCATION"; "LOWER"; "MATCH"; "MATERIALIZED"; "MAX"; "MEMBER"; "MERGE";
  "METHOD"; "MIN"; "MINUTE"; "MOD"; "MODIFIES"; "MODULE"; "MONTH";
  "MULTISET"; "NATIONAL"; "NATURAL"; "NCHAR"; "NCLOB"; "NEW"; "NO"; "NONE";
  "NORMALIZE"; "NOT"; "NTH_VALUE"; "NTILE"; "NULL"; "NULLIF"; "NUMERIC";
  "OBJECT"; "OCTET_LENGTH"; "OCCURRENCES_REGEX"; "OF"; "OFFSET"; "OLD"; "ON";
  "ONLY"; "OPEN"; "OR"; "ORDER"; "OUT"; "OUTER"; "OVER"; "OVERLAPS";
  "OVERLAY"; "PARAMETER"; "PARTITION"; "PARQUET"; "PERCENT"; "PERCENT_RANK";
  "PERCENTILE_CONT"; "PERCENTILE_DISC"; "PERIOD"; "PORTION"; "POSITION";
  "POSITION_REGEX"; "POWER"; "PRECEDES"; "PRECEDING"; "PRECISION"; "PREPARE";
  "PRIMARY"; "PROCEDURE"; "RANGE"; "RANK"; "READS"; "REAL"; "RECURSIVE";
  "REF"; "REFERENCES"; "REFERENCING"; "REGCLASS"; "REGR_AVGX"; "REGR_AVGY";
  "REGR_COUNT"; "REGR_INTERCEPT"; "REGR_R2"; "REGR_SLOPE"; "REGR_SXX";
  "REGR_SXY"; "REGR_SYY"; "RELEASE"; "RESULT"; "RETURN"; "RETURNS"; "REVOKE";
  "RIGHT"; "ROLLBACK"; "ROLLUP"; "ROW"; "ROW_NUMBER"; "ROWS"; "SAVEPOINT";
  "SCOPE"; "SCROLL"; "SEARCH"; "SECOND"; "SELECT"; "SENSITIVE";
  "SESSION_USER"; "SET"; "SIMILAR"; "SMALLINT"; "SOME"; "SPECIFIC";
  "SPECIFICTYPE"; "SQL"; "SQLEXCEPTION"; "SQLSTATE"; "SQLWARNING"; "SQRT";
  "START"; "STATIC"; "STDDEV_POP"; "STDDEV_SAMP"; "STDIN"; "STORED";
  "SUBMULTISET"; "SUBSTRING"; "SUBSTRING_REGEX"; "SUCCEEDS"; "SUM";
  "SYMMETRIC"; "SYSTEM"; "SYSTEM_TIME"; "SYSTEM_USER"; "TABLE";
  "TABLESAMPLE"; "TEXT"; "THEN"; "TIME"; "TIMESTAMP"; "TIMEZONE_HOUR";
  "TIMEZONE_MINUTE"; "TO"; "TRAILING"; "TRANSLATE"; "TRANSLATE_REGEX";
  "TRANSLATION"; "TREAT"; "TRIGGER"; "TRUNCATE"; "TRIM"; "TRIM_ARRAY";
  "TRUE"; "UESCAPE"; "UNBOUNDED"; "UNION"; "UNIQUE"; "UNKNOWN"; "UNNEST";
  "UPDATE"; "UPPER"; "USER"; "USING"; "UUID"; "VALUE"; "VALUES"; "VALUE_OF";
  "VAR_POP"; "VAR_SAMP"; "VARBINARY"; "VARCHAR"; "VARYING"; "VERSIONING";
  "VIEW"; "WHEN"; "WHENEVER"; "WHERE"; "WIDTH_BUCKET"; "WINDOW"; "WITH";
  "WITHIN"; "WITHOUT"; "YEAR"; "ZONE"]%string.

(** dialect/keywords.go:357-374. *)
Definition reserved_table_alias : list gostring := map gs [
  "WITH"; "SELECT"; "WHERE"; "GROUP"; "ORDER"; "UNION"; "EXCEPT";
  "INTERSECT"; "ON"; "JOIN"; "INNER"; "CROSS"; "FULL"; "LEFT"; "RIGHT";
  "NATURAL"; "USING"]%string.

(** dialect/keywords.go:376-385. *)
Definition reserved_column_alias : list gostring := map gs [
  "WITH"; "SELECT"; "WHERE"; "GROUP"; "ORDER"; "UNION"; "EXCEPT";
  "INTERSECT"; "FROM"]%string.
