(** The project's own tests, run on the model.  Nothing here is a property: the
    examples check the reading of the code into the model. *)
From Coq Require Import ZArith List Bool String.
From Verif Require Import Base Dialect Token Lexer AST Prog Parser Num Printer Nodes Walk PosEnd CommentMap Apply ApplySpec Genmark.
Import ListNotations.
Open Scope Z_scope.

(** e2e/e2e_test.go:66-109: parse, print, parse, print, parse; the statements
    read the second and third time are the same, positions included. *)
Definition e2e (src : gostring) : Prop :=
  match parse_stmt_source generic src with
  | ROk s =>
      match parse_stmt_source generic (sql_stmt s) with
      | ROk s2 => parse_stmt_source generic (sql_stmt s2) = ROk s2
      | _ => False
      end
  | _ => False
  end.

(** parser_test.go:2094-2107. *)
Definition comments_of (src : gostring) : option (list commentgroup) :=
  match parse_file generic src with ROk f => Some (f_comments f) | _ => None end.

(** sqltoken/tokenizer_test.go:15-492. *)
Example tokens_0 : tokenize generic true (gs " ") = TOk
  [mkTok Token.Whitespace (VStr (gs " ")) (mkPos 1 1) (mkPos 1 2)].
Proof. vm_compute. reflexivity. Qed.

Example tokens_1 : tokenize generic true ([10] ++ gs " ") = TOk
  [mkTok Token.Whitespace (VStr ([10])) (mkPos 1 1) (mkPos 2 1);
   mkTok Token.Whitespace (VStr (gs " ")) (mkPos 2 1) (mkPos 2 2)].
Proof. vm_compute. reflexivity. Qed.

Example tokens_2 : tokenize generic true ([13; 10; 9]) = TOk
  [mkTok Token.Whitespace (VStr ([10])) (mkPos 1 1) (mkPos 2 1);
   mkTok Token.Whitespace (VStr ([9])) (mkPos 2 1) (mkPos 2 5)].
Proof. vm_compute. reflexivity. Qed.

Example tokens_3 : tokenize generic true (gs "N'string'") = TOk
  [mkTok Token.NationalStringLiteral (VStr (gs "string")) (mkPos 1 1) (mkPos 1 10)].
Proof. vm_compute. reflexivity. Qed.

Example tokens_4 : tokenize generic true (gs "N'string' NOT") = TOk
  [mkTok Token.NationalStringLiteral (VStr (gs "string")) (mkPos 1 1) (mkPos 1 10);
   mkTok Token.Whitespace (VStr (gs " ")) (mkPos 1 10) (mkPos 1 11);
   mkTok Token.SQLKeyword (VWord (mkWord (gs "NOT") 0 (gs "NOT"))) (mkPos 1 11) (mkPos 1 14)].
Proof. vm_compute. reflexivity. Qed.

Example tokens_5 : tokenize generic true (gs "select") = TOk
  [mkTok Token.SQLKeyword (VWord (mkWord (gs "select") 0 (gs "SELECT"))) (mkPos 1 1) (mkPos 1 7)].
Proof. vm_compute. reflexivity. Qed.

Example tokens_6 : tokenize generic true (gs "'test'") = TOk
  [mkTok Token.SingleQuotedString (VStr (gs "test")) (mkPos 1 1) (mkPos 1 7)].
Proof. vm_compute. reflexivity. Qed.

Example tokens_7 : tokenize generic true (gs """SELECT""") = TOk
  [mkTok Token.SQLKeyword (VWord (mkWord (gs "SELECT") 34 (gs "SELECT"))) (mkPos 1 1) (mkPos 1 9)].
Proof. vm_compute. reflexivity. Qed.

Example tokens_8 : tokenize generic true (gs "(123),") = TOk
  [mkTok Token.LParen (VStr (gs "(")) (mkPos 1 1) (mkPos 1 2);
   mkTok Token.Number (VStr (gs "123")) (mkPos 1 2) (mkPos 1 5);
   mkTok Token.RParen (VStr (gs ")")) (mkPos 1 5) (mkPos 1 6);
   mkTok Token.Comma (VStr (gs ",")) (mkPos 1 6) (mkPos 1 7)].
Proof. vm_compute. reflexivity. Qed.

Example tokens_9 : tokenize generic true (gs "-- test") = TOk
  [mkTok Token.Comment (VStr (gs " test")) (mkPos 1 1) (mkPos 1 8)].
Proof. vm_compute. reflexivity. Qed.

Example tokens_10 : tokenize generic true (gs "1-3") = TOk
  [mkTok Token.Number (VStr (gs "1")) (mkPos 1 1) (mkPos 1 2);
   mkTok Token.Minus (VStr (gs "-")) (mkPos 1 2) (mkPos 1 3);
   mkTok Token.Number (VStr (gs "3")) (mkPos 1 3) (mkPos 1 4)].
Proof. vm_compute. reflexivity. Qed.

Example tokens_11 : tokenize generic true (gs "/* test" ++ [10] ++ gs "multiline" ++ [10] ++ gs "comment */") = TOk
  [mkTok Token.Comment (VStr (gs " test" ++ [10] ++ gs "multiline" ++ [10] ++ gs "comment ")) (mkPos 1 1) (mkPos 3 11)].
Proof. vm_compute. reflexivity. Qed.

Example tokens_12 : tokenize generic true (gs "1/1*1+1%1=1.1-.") = TOk
  [mkTok Token.Number (VStr (gs "1")) (mkPos 1 1) (mkPos 1 2);
   mkTok Token.Div (VStr (gs "/")) (mkPos 1 2) (mkPos 1 3);
   mkTok Token.Number (VStr (gs "1")) (mkPos 1 3) (mkPos 1 4);
   mkTok Token.Mult (VStr (gs "*")) (mkPos 1 4) (mkPos 1 5);
   mkTok Token.Number (VStr (gs "1")) (mkPos 1 5) (mkPos 1 6);
   mkTok Token.Plus (VStr (gs "+")) (mkPos 1 6) (mkPos 1 7);
   mkTok Token.Number (VStr (gs "1")) (mkPos 1 7) (mkPos 1 8);
   mkTok Token.Mod (VStr (gs "%")) (mkPos 1 8) (mkPos 1 9);
   mkTok Token.Number (VStr (gs "1")) (mkPos 1 9) (mkPos 1 10);
   mkTok Token.Eq (VStr (gs "=")) (mkPos 1 10) (mkPos 1 11);
   mkTok Token.Number (VStr (gs "1.1")) (mkPos 1 11) (mkPos 1 14);
   mkTok Token.Minus (VStr (gs "-")) (mkPos 1 14) (mkPos 1 15);
   mkTok Token.Period (VStr (gs ".")) (mkPos 1 15) (mkPos 1 16)].
Proof. vm_compute. reflexivity. Qed.

Example tokens_13 : tokenize generic true (gs "1!=2") = TOk
  [mkTok Token.Number (VStr (gs "1")) (mkPos 1 1) (mkPos 1 2);
   mkTok Token.Neq (VStr (gs "!=")) (mkPos 1 2) (mkPos 1 4);
   mkTok Token.Number (VStr (gs "2")) (mkPos 1 4) (mkPos 1 5)].
Proof. vm_compute. reflexivity. Qed.

Example tokens_14 : tokenize generic true (gs "<<=<>") = TOk
  [mkTok Token.Lt (VStr (gs "<")) (mkPos 1 1) (mkPos 1 2);
   mkTok Token.LtEq (VStr (gs "<=")) (mkPos 1 2) (mkPos 1 4);
   mkTok Token.Neq (VStr (gs "<>")) (mkPos 1 4) (mkPos 1 6)].
Proof. vm_compute. reflexivity. Qed.

Example tokens_15 : tokenize generic true (gs ">>=") = TOk
  [mkTok Token.Gt (VStr (gs ">")) (mkPos 1 1) (mkPos 1 2);
   mkTok Token.GtEq (VStr (gs ">=")) (mkPos 1 2) (mkPos 1 4)].
Proof. vm_compute. reflexivity. Qed.

Example tokens_16 : tokenize generic true (gs ":1::1;") = TOk
  [mkTok Token.Colon (VStr (gs ":")) (mkPos 1 1) (mkPos 1 2);
   mkTok Token.Number (VStr (gs "1")) (mkPos 1 2) (mkPos 1 3);
   mkTok Token.DoubleColon (VStr (gs "::")) (mkPos 1 3) (mkPos 1 5);
   mkTok Token.Number (VStr (gs "1")) (mkPos 1 5) (mkPos 1 6);
   mkTok Token.Semicolon (VStr (gs ";")) (mkPos 1 6) (mkPos 1 7)].
Proof. vm_compute. reflexivity. Qed.

Example tokens_17 : tokenize generic true (gs "\[{&}]") = TOk
  [mkTok Token.Backslash (VStr (gs "\")) (mkPos 1 1) (mkPos 1 2);
   mkTok Token.LBracket (VStr (gs "[")) (mkPos 1 2) (mkPos 1 3);
   mkTok Token.LBrace (VStr (gs "{")) (mkPos 1 3) (mkPos 1 4);
   mkTok Token.Ampersand (VStr (gs "&")) (mkPos 1 4) (mkPos 1 5);
   mkTok Token.RBrace (VStr (gs "}")) (mkPos 1 5) (mkPos 1 6);
   mkTok Token.RBracket (VStr (gs "]")) (mkPos 1 6) (mkPos 1 7)].
Proof. vm_compute. reflexivity. Qed.

(** parser_test.go, cases from line 22. *)
(** simple select *)
Example stmt_22_0 : parse_stmt_source generic (gs "SELECT test FROM test_table") = ROk
  (StQuery (Query pos0 [] (SSelect (Select false [(SIUnnamed (EIdent (mkIdent (gs "test") (mkPos 1 8) (mkPos 1 12))))] [(TRTable (mkON [(mkIdent (gs "test_table") (mkPos 1 18) (mkPos 1 28))]) None [] pos0 [] pos0)] None [] None (mkPos 1 1))) [] None)).
Proof. vm_compute. reflexivity. Qed.

(** where *)
Example stmt_22_1 : parse_stmt_source generic (gs "SELECT test FROM test_table WHERE test_table.column1 = 'test'") = ROk
  (StQuery (Query pos0 [] (SSelect (Select false [(SIUnnamed (EIdent (mkIdent (gs "test") (mkPos 1 8) (mkPos 1 12))))] [(TRTable (mkON [(mkIdent (gs "test_table") (mkPos 1 18) (mkPos 1 28))]) None [] pos0 [] pos0)] (Some (EBinary (ECompound [(mkIdent (gs "test_table") (mkPos 1 35) (mkPos 1 45)); (mkIdent (gs "column1") (mkPos 1 46) (mkPos 1 53))]) (mkOp OEq (mkPos 1 54) (mkPos 1 55)) (EString (mkPos 1 56) (mkPos 1 62) (gs "test")))) [] None (mkPos 1 1))) [] None)).
Proof. vm_compute. reflexivity. Qed.

(** count and join *)
Example stmt_22_2 : parse_stmt_source generic (gs "SELECT COUNT(t1.id) AS c FROM test_table AS t1 LEFT JOIN test_table2 AS t2 ON t1.id = t2.test_table_id") = ROk
  (StQuery (Query pos0 [] (SSelect (Select false [(SIAlias (EFunction (mkON [(mkIdent (gs "COUNT") (mkPos 1 8) (mkPos 1 13))]) [(ECompound [(mkIdent (gs "t1") (mkPos 1 14) (mkPos 1 16)); (mkIdent (gs "id") (mkPos 1 17) (mkPos 1 19))])] (mkPos 1 20) None pos0) (mkIdent (gs "c") (mkPos 1 24) (mkPos 1 25)))] [(TRQualified (TRTable (mkON [(mkIdent (gs "test_table") (mkPos 1 31) (mkPos 1 41))]) (Some (mkIdent (gs "t1") (mkPos 1 45) (mkPos 1 47))) [] pos0 [] pos0) (mkJT JLEFT (mkPos 1 48) (mkPos 1 52)) (TRTable (mkON [(mkIdent (gs "test_table2") (mkPos 1 58) (mkPos 1 69))]) (Some (mkIdent (gs "t2") (mkPos 1 73) (mkPos 1 75))) [] pos0 [] pos0) (JOn (EBinary (ECompound [(mkIdent (gs "t1") (mkPos 1 79) (mkPos 1 81)); (mkIdent (gs "id") (mkPos 1 82) (mkPos 1 84))]) (mkOp OEq (mkPos 1 85) (mkPos 1 86)) (ECompound [(mkIdent (gs "t2") (mkPos 1 87) (mkPos 1 89)); (mkIdent (gs "test_table_id") (mkPos 1 90) (mkPos 1 103))])) (mkPos 1 76)))] None [] None (mkPos 1 1))) [] None)).
Proof. vm_compute. reflexivity. Qed.

(** group by *)
Example stmt_22_3 : parse_stmt_source generic (gs "SELECT COUNT(customer_id), country.* FROM customers GROUP BY country") = ROk
  (StQuery (Query pos0 [] (SSelect (Select false [(SIUnnamed (EFunction (mkON [(mkIdent (gs "COUNT") (mkPos 1 8) (mkPos 1 13))]) [(EIdent (mkIdent (gs "customer_id") (mkPos 1 14) (mkPos 1 25)))] (mkPos 1 26) None pos0)); (SIQualWildcard (mkON [(mkIdent (gs "country") (mkPos 1 28) (mkPos 1 35))]))] [(TRTable (mkON [(mkIdent (gs "customers") (mkPos 1 43) (mkPos 1 52))]) None [] pos0 [] pos0)] None [(EIdent (mkIdent (gs "country") (mkPos 1 62) (mkPos 1 69)))] None (mkPos 1 1))) [] None)).
Proof. vm_compute. reflexivity. Qed.

(** having *)
Example stmt_22_4 : parse_stmt_source generic (gs "SELECT COUNT(customer_id), country " ++ [10] ++ gs "FROM customers " ++ [10] ++ gs "GROUP BY country " ++ [10] ++ gs "HAVING COUNT(customer_id) > 3") = ROk
  (StQuery (Query pos0 [] (SSelect (Select false [(SIUnnamed (EFunction (mkON [(mkIdent (gs "COUNT") (mkPos 1 8) (mkPos 1 13))]) [(EIdent (mkIdent (gs "customer_id") (mkPos 1 14) (mkPos 1 25)))] (mkPos 1 26) None pos0)); (SIUnnamed (EIdent (mkIdent (gs "country") (mkPos 1 28) (mkPos 1 35))))] [(TRTable (mkON [(mkIdent (gs "customers") (mkPos 2 6) (mkPos 2 15))]) None [] pos0 [] pos0)] None [(EIdent (mkIdent (gs "country") (mkPos 3 10) (mkPos 3 17)))] (Some (EBinary (EFunction (mkON [(mkIdent (gs "COUNT") (mkPos 4 8) (mkPos 4 13))]) [(EIdent (mkIdent (gs "customer_id") (mkPos 4 14) (mkPos 4 25)))] (mkPos 4 26) None pos0) (mkOp OGt (mkPos 4 27) (mkPos 4 28)) (ELong (mkLong (mkPos 4 29) (mkPos 4 30) 3)))) (mkPos 1 1))) [] None)).
Proof. vm_compute. reflexivity. Qed.

(** order by and limit *)
Example stmt_22_5 : parse_stmt_source generic (gs "SELECT product, SUM(quantity) AS product_units" ++ [10] ++ gs "FROM orders " ++ [10] ++ gs "WHERE region IN (SELECT region FROM top_regions) " ++ [10] ++ gs "ORDER BY product_units LIMIT 100") = ROk
  (StQuery (Query pos0 [] (SSelect (Select false [(SIUnnamed (EIdent (mkIdent (gs "product") (mkPos 1 8) (mkPos 1 15)))); (SIAlias (EFunction (mkON [(mkIdent (gs "SUM") (mkPos 1 17) (mkPos 1 20))]) [(EIdent (mkIdent (gs "quantity") (mkPos 1 21) (mkPos 1 29)))] (mkPos 1 30) None pos0) (mkIdent (gs "product_units") (mkPos 1 34) (mkPos 1 47)))] [(TRTable (mkON [(mkIdent (gs "orders") (mkPos 2 6) (mkPos 2 12))]) None [] pos0 [] pos0)] (Some (EInSubQuery (EIdent (mkIdent (gs "region") (mkPos 3 7) (mkPos 3 13))) (Query pos0 [] (SSelect (Select false [(SIUnnamed (EIdent (mkIdent (gs "region") (mkPos 3 25) (mkPos 3 31))))] [(TRTable (mkON [(mkIdent (gs "top_regions") (mkPos 3 37) (mkPos 3 48))]) None [] pos0 [] pos0)] None [] None (mkPos 3 18))) [] None) false (mkPos 3 49))) [] None (mkPos 1 1))) [(OrderBy (EIdent (mkIdent (gs "product_units") (mkPos 4 10) (mkPos 4 23))) pos0 None)] (Some (mkLimit pos0 pos0 (Some (mkLong (mkPos 4 30) (mkPos 4 33) 100)) None)))).
Proof. vm_compute. reflexivity. Qed.

(** with cte *)
Example stmt_22_6 : parse_stmt_source generic (gs "WITH regional_sales AS (SELECT region, SUM(amount) AS total_sales FROM orders GROUP BY region)" ++ [10] ++ gs "SELECT product, SUM(quantity) AS product_units" ++ [10] ++ gs "FROM orders" ++ [10] ++ gs "WHERE region IN (SELECT region FROM top_regions)" ++ [10] ++ gs "GROUP BY region, product") = ROk
  (StQuery (Query pos0 [(CTE (mkIdent (gs "regional_sales") (mkPos 1 6) (mkPos 1 20)) (Query pos0 [] (SSelect (Select false [(SIUnnamed (EIdent (mkIdent (gs "region") (mkPos 1 32) (mkPos 1 38)))); (SIAlias (EFunction (mkON [(mkIdent (gs "SUM") (mkPos 1 40) (mkPos 1 43))]) [(EIdent (mkIdent (gs "amount") (mkPos 1 44) (mkPos 1 50)))] (mkPos 1 51) None pos0) (mkIdent (gs "total_sales") (mkPos 1 55) (mkPos 1 66)))] [(TRTable (mkON [(mkIdent (gs "orders") (mkPos 1 72) (mkPos 1 78))]) None [] pos0 [] pos0)] None [(EIdent (mkIdent (gs "region") (mkPos 1 88) (mkPos 1 94)))] None (mkPos 1 25))) [] None) pos0)] (SSelect (Select false [(SIUnnamed (EIdent (mkIdent (gs "product") (mkPos 2 8) (mkPos 2 15)))); (SIAlias (EFunction (mkON [(mkIdent (gs "SUM") (mkPos 2 17) (mkPos 2 20))]) [(EIdent (mkIdent (gs "quantity") (mkPos 2 21) (mkPos 2 29)))] (mkPos 2 30) None pos0) (mkIdent (gs "product_units") (mkPos 2 34) (mkPos 2 47)))] [(TRTable (mkON [(mkIdent (gs "orders") (mkPos 3 6) (mkPos 3 12))]) None [] pos0 [] pos0)] (Some (EInSubQuery (EIdent (mkIdent (gs "region") (mkPos 4 7) (mkPos 4 13))) (Query pos0 [] (SSelect (Select false [(SIUnnamed (EIdent (mkIdent (gs "region") (mkPos 4 25) (mkPos 4 31))))] [(TRTable (mkON [(mkIdent (gs "top_regions") (mkPos 4 37) (mkPos 4 48))]) None [] pos0 [] pos0)] None [] None (mkPos 4 18))) [] None) false (mkPos 4 49))) [(EIdent (mkIdent (gs "region") (mkPos 5 10) (mkPos 5 16))); (EIdent (mkIdent (gs "product") (mkPos 5 18) (mkPos 5 25)))] None (mkPos 2 1))) [] None)).
Proof. vm_compute. reflexivity. Qed.

(** exists *)
Example stmt_22_7 : parse_stmt_source generic (gs "SELECT * FROM user WHERE NOT EXISTS " ++ [10] ++ gs "(SELECT * " ++ [10] ++ gs "FROM user_sub " ++ [10] ++ gs "WHERE user.id = user_sub.id AND user_sub.job = 'job');") = ROk
  (StQuery (Query pos0 [] (SSelect (Select false [(SIUnnamed (EWildcard (mkPos 1 8)))] [(TRTable (mkON [(mkIdent (gs "user") (mkPos 1 15) (mkPos 1 19))]) None [] pos0 [] pos0)] (Some (EExists true (Query pos0 [] (SSelect (Select false [(SIUnnamed (EWildcard (mkPos 2 9)))] [(TRTable (mkON [(mkIdent (gs "user_sub") (mkPos 3 6) (mkPos 3 14))]) None [] pos0 [] pos0)] (Some (EBinary (EBinary (ECompound [(mkIdent (gs "user") (mkPos 4 7) (mkPos 4 11)); (mkIdent (gs "id") (mkPos 4 12) (mkPos 4 14))]) (mkOp OEq (mkPos 4 15) (mkPos 4 16)) (ECompound [(mkIdent (gs "user_sub") (mkPos 4 17) (mkPos 4 25)); (mkIdent (gs "id") (mkPos 4 26) (mkPos 4 28))])) (mkOp OAnd (mkPos 4 29) (mkPos 4 32)) (EBinary (ECompound [(mkIdent (gs "user_sub") (mkPos 4 33) (mkPos 4 41)); (mkIdent (gs "job") (mkPos 4 42) (mkPos 4 45))]) (mkOp OEq (mkPos 4 46) (mkPos 4 47)) (EString (mkPos 4 48) (mkPos 4 53) (gs "job"))))) [] None (mkPos 2 2))) [] None) (mkPos 1 26) (mkPos 1 30) (mkPos 4 54))) [] None (mkPos 1 1))) [] None)).
Proof. vm_compute. reflexivity. Qed.

(** between / case *)
Example stmt_22_8 : parse_stmt_source generic (gs "SELECT " ++ [10] ++ gs "CASE" ++ [10] ++ gs " WHEN expr1 = '1' THEN 'test1' " ++ [10] ++ gs " WHEN expr2 = '2' THEN 'test2' " ++ [10] ++ gs " ELSE 'other' " ++ [10] ++ gs "END AS alias" ++ [10] ++ gs "FROM user WHERE id BETWEEN 1 AND 2") = ROk
  (StQuery (Query pos0 [] (SSelect (Select false [(SIAlias (ECase (mkPos 2 1) (mkPos 6 4) None [((EBinary (EIdent (mkIdent (gs "expr1") (mkPos 3 7) (mkPos 3 12))) (mkOp OEq (mkPos 3 13) (mkPos 3 14)) (EString (mkPos 3 15) (mkPos 3 18) (gs "1"))), (EString (mkPos 3 24) (mkPos 3 31) (gs "test1"))); ((EBinary (EIdent (mkIdent (gs "expr2") (mkPos 4 7) (mkPos 4 12))) (mkOp OEq (mkPos 4 13) (mkPos 4 14)) (EString (mkPos 4 15) (mkPos 4 18) (gs "2"))), (EString (mkPos 4 24) (mkPos 4 31) (gs "test2")))] (Some (EString (mkPos 5 7) (mkPos 5 14) (gs "other")))) (mkIdent (gs "alias") (mkPos 6 8) (mkPos 6 13)))] [(TRTable (mkON [(mkIdent (gs "user") (mkPos 7 6) (mkPos 7 10))]) None [] pos0 [] pos0)] (Some (EBetween (EIdent (mkIdent (gs "id") (mkPos 7 17) (mkPos 7 19))) false (ELong (mkLong (mkPos 7 28) (mkPos 7 29) 1)) (ELong (mkLong (mkPos 7 34) (mkPos 7 35) 2)))) [] None (mkPos 1 1))) [] None)).
Proof. vm_compute. reflexivity. Qed.

(** parser_test.go, cases from line 941. *)
(** create table *)
Example stmt_941_0 : parse_stmt_source generic ([10] ++ gs "CREATE TABLE persons (" ++ [10] ++ gs " person_id UUID PRIMARY KEY NOT NULL," ++ [10] ++ gs " first_name varchar(255) UNIQUE," ++ [10] ++ gs " last_name character varying(255) NOT NULL," ++ [10] ++ gs " created_at timestamp DEFAULT CURRENT_TIMESTAMP NOT NULL" ++ [10] ++ gs ")") = ROk
  (StCreateTable (mkPos 2 1) (mkON [(mkIdent (gs "persons") (mkPos 2 14) (mkPos 2 21))]) [(TEColumn (mkColDef (mkIdent (gs "person_id") (mkPos 3 2) (mkPos 3 11)) (TUUID (mkPos 3 12) (mkPos 3 16)) None [] [(mkCC None pos0 (CCUnique true (mkPos 3 17) (mkPos 3 28) pos0)); (mkCC None pos0 (CCNotNull (mkPos 3 29) (mkPos 3 37)))])); (TEColumn (mkColDef (mkIdent (gs "first_name") (mkPos 4 2) (mkPos 4 12)) (TVarchar (Some 255) (mkPos 4 13) pos0 (mkPos 4 25)) None [] [(mkCC None pos0 (CCUnique false pos0 pos0 (mkPos 4 26)))])); (TEColumn (mkColDef (mkIdent (gs "last_name") (mkPos 5 2) (mkPos 5 11)) (TVarchar (Some 255) (mkPos 5 12) (mkPos 5 29) (mkPos 5 34)) None [] [(mkCC None pos0 (CCNotNull (mkPos 5 35) (mkPos 5 43)))])); (TEColumn (mkColDef (mkIdent (gs "created_at") (mkPos 6 2) (mkPos 6 12)) (TTimestamp false (mkPos 6 13) pos0) (Some (EIdent (mkIdent (gs "CURRENT_TIMESTAMP") (mkPos 6 31) (mkPos 6 48)))) [] [(mkCC None pos0 (CCNotNull (mkPos 6 49) (mkPos 6 57)))]))] false []).
Proof. vm_compute. reflexivity. Qed.

(** with case *)
Example stmt_941_1 : parse_stmt_source generic (gs "CREATE TABLE persons (" ++ [10] ++ gs "person_id int PRIMARY KEY NOT NULL," ++ [10] ++ gs "last_name character varying(255) NOT NULL," ++ [10] ++ gs "test_id int NOT NULL REFERENCES test(id1)," ++ [10] ++ gs "email character varying(255) UNIQUE NOT NULL," ++ [10] ++ gs "age int NOT NULL CHECK(age > 0 AND age < 100)," ++ [10] ++ gs "created_at timestamp DEFAULT CURRENT_TIMESTAMP NOT NULL" ++ [10] ++ gs ")") = ROk
  (StCreateTable (mkPos 1 1) (mkON [(mkIdent (gs "persons") (mkPos 1 14) (mkPos 1 21))]) [(TEColumn (mkColDef (mkIdent (gs "person_id") (mkPos 2 1) (mkPos 2 10)) (TInt (mkPos 2 11) (mkPos 2 14) false pos0) None [] [(mkCC None pos0 (CCUnique true (mkPos 2 15) (mkPos 2 26) pos0)); (mkCC None pos0 (CCNotNull (mkPos 2 27) (mkPos 2 35)))])); (TEColumn (mkColDef (mkIdent (gs "last_name") (mkPos 3 1) (mkPos 3 10)) (TVarchar (Some 255) (mkPos 3 11) (mkPos 3 28) (mkPos 3 33)) None [] [(mkCC None pos0 (CCNotNull (mkPos 3 34) (mkPos 3 42)))])); (TEColumn (mkColDef (mkIdent (gs "test_id") (mkPos 4 1) (mkPos 4 8)) (TInt (mkPos 4 9) (mkPos 4 12) false pos0) None [] [(mkCC None pos0 (CCNotNull (mkPos 4 13) (mkPos 4 21))); (mkCC None pos0 (CCReferences (mkPos 4 22) (mkPos 4 42) (mkON [(mkIdent (gs "test") (mkPos 4 33) (mkPos 4 37))]) [(mkIdent (gs "id1") (mkPos 4 38) (mkPos 4 41))]))])); (TEColumn (mkColDef (mkIdent (gs "email") (mkPos 5 1) (mkPos 5 6)) (TVarchar (Some 255) (mkPos 5 7) (mkPos 5 24) (mkPos 5 29)) None [] [(mkCC None pos0 (CCUnique false pos0 pos0 (mkPos 5 30))); (mkCC None pos0 (CCNotNull (mkPos 5 37) (mkPos 5 45)))])); (TEColumn (mkColDef (mkIdent (gs "age") (mkPos 6 1) (mkPos 6 4)) (TInt (mkPos 6 5) (mkPos 6 8) false pos0) None [] [(mkCC None pos0 (CCNotNull (mkPos 6 9) (mkPos 6 17))); (mkCC None pos0 (CCCheck (EBinary (EBinary (EIdent (mkIdent (gs "age") (mkPos 6 24) (mkPos 6 27))) (mkOp OGt (mkPos 6 28) (mkPos 6 29)) (ELong (mkLong (mkPos 6 30) (mkPos 6 31) 0))) (mkOp OAnd (mkPos 6 32) (mkPos 6 35)) (EBinary (EIdent (mkIdent (gs "age") (mkPos 6 36) (mkPos 6 39))) (mkOp OLt (mkPos 6 40) (mkPos 6 41)) (ELong (mkLong (mkPos 6 42) (mkPos 6 45) 100)))) (mkPos 6 18) (mkPos 6 46)))])); (TEColumn (mkColDef (mkIdent (gs "created_at") (mkPos 7 1) (mkPos 7 11)) (TTimestamp false (mkPos 7 12) pos0) (Some (EIdent (mkIdent (gs "CURRENT_TIMESTAMP") (mkPos 7 30) (mkPos 7 47)))) [] [(mkCC None pos0 (CCNotNull (mkPos 7 48) (mkPos 7 56)))]))] false []).
Proof. vm_compute. reflexivity. Qed.

(** with table constraint *)
Example stmt_941_2 : parse_stmt_source generic (gs "CREATE TABLE persons (" ++ [10] ++ gs "person_id int," ++ [10] ++ gs "CONSTRAINT production UNIQUE(test_column)," ++ [10] ++ gs "PRIMARY KEY(person_id)," ++ [10] ++ gs "CHECK(id > 100)," ++ [10] ++ gs "FOREIGN KEY(test_id) REFERENCES other_table(col1, col2)" ++ [10] ++ gs ")") = ROk
  (StCreateTable (mkPos 1 1) (mkON [(mkIdent (gs "persons") (mkPos 1 14) (mkPos 1 21))]) [(TEColumn (mkColDef (mkIdent (gs "person_id") (mkPos 2 1) (mkPos 2 10)) (TInt (mkPos 2 11) (mkPos 2 14) false pos0) None [] [])); (TEConstraint (mkTC (mkPos 3 1) (Some (mkIdent (gs "production") (mkPos 3 12) (mkPos 3 22))) (TCUnique false pos0 (mkPos 3 23) (mkPos 3 42) [(mkIdent (gs "test_column") (mkPos 3 30) (mkPos 3 41))]))); (TEConstraint (mkTC pos0 None (TCUnique true (mkPos 4 1) pos0 (mkPos 4 23) [(mkIdent (gs "person_id") (mkPos 4 13) (mkPos 4 22))]))); (TEConstraint (mkTC pos0 None (TCCheck (mkPos 5 1) (mkPos 5 16) (EBinary (EIdent (mkIdent (gs "id") (mkPos 5 7) (mkPos 5 9))) (mkOp OGt (mkPos 5 10) (mkPos 5 11)) (ELong (mkLong (mkPos 5 12) (mkPos 5 15) 100)))))); (TEConstraint (mkTC pos0 None (TCReferential (mkPos 6 1) [(mkIdent (gs "test_id") (mkPos 6 13) (mkPos 6 20))] (mkRefKey (mkIdent (gs "other_table") (mkPos 6 33) (mkPos 6 44)) [(mkIdent (gs "col1") (mkPos 6 45) (mkPos 6 49)); (mkIdent (gs "col2") (mkPos 6 51) (mkPos 6 55))] (mkPos 6 56)))))] false []).
Proof. vm_compute. reflexivity. Qed.

(** create view *)
Example stmt_941_3 : parse_stmt_source generic (gs "CREATE VIEW comedies AS SELECT * FROM films WHERE kind = 'Comedy'") = ROk
  (StCreateView (mkPos 1 1) (mkON [(mkIdent (gs "comedies") (mkPos 1 13) (mkPos 1 21))]) (Query pos0 [] (SSelect (Select false [(SIUnnamed (EWildcard (mkPos 1 32)))] [(TRTable (mkON [(mkIdent (gs "films") (mkPos 1 39) (mkPos 1 44))]) None [] pos0 [] pos0)] (Some (EBinary (EIdent (mkIdent (gs "kind") (mkPos 1 51) (mkPos 1 55))) (mkOp OEq (mkPos 1 56) (mkPos 1 57)) (EString (mkPos 1 58) (mkPos 1 66) (gs "Comedy")))) [] None (mkPos 1 25))) [] None) false).
Proof. vm_compute. reflexivity. Qed.

(** parser_test.go, cases from line 1481. *)
(** simple case *)
Example stmt_1481_0 : parse_stmt_source generic (gs "DELETE FROM customers WHERE customer_id = 1") = ROk
  (StDelete (mkPos 1 1) (mkON [(mkIdent (gs "customers") (mkPos 1 13) (mkPos 1 22))]) (Some (EBinary (EIdent (mkIdent (gs "customer_id") (mkPos 1 29) (mkPos 1 40))) (mkOp OEq (mkPos 1 41) (mkPos 1 42)) (ELong (mkLong (mkPos 1 43) (mkPos 1 44) 1))))).
Proof. vm_compute. reflexivity. Qed.

(** parser_test.go, cases from line 1541. *)
(** simple case *)
Example stmt_1541_0 : parse_stmt_source generic (gs "INSERT INTO customers (customer_name, contract_name) VALUES('Cardinal', 'Tom B. Erichsen')") = ROk
  (StInsert (mkPos 1 1) (mkON [(mkIdent (gs "customers") (mkPos 1 13) (mkPos 1 22))]) [(mkIdent (gs "customer_name") (mkPos 1 24) (mkPos 1 37)); (mkIdent (gs "contract_name") (mkPos 1 39) (mkPos 1 52))] (ISConstructor pos0 [(mkRow [(EString (mkPos 1 61) (mkPos 1 71) (gs "Cardinal")); (EString (mkPos 1 73) (mkPos 1 90) (gs "Tom B. Erichsen"))] (mkPos 1 60) (mkPos 1 91))]) []).
Proof. vm_compute. reflexivity. Qed.

(** multi record case *)
Example stmt_1541_1 : parse_stmt_source generic (gs "INSERT INTO customers (customer_name, contract_name) VALUES" ++ [10] ++ gs "('Cardinal', 'Tom B. Erichsen')," ++ [10] ++ gs "('Cardinal', 'Tom B. Erichsen')") = ROk
  (StInsert (mkPos 1 1) (mkON [(mkIdent (gs "customers") (mkPos 1 13) (mkPos 1 22))]) [(mkIdent (gs "customer_name") (mkPos 1 24) (mkPos 1 37)); (mkIdent (gs "contract_name") (mkPos 1 39) (mkPos 1 52))] (ISConstructor pos0 [(mkRow [(EString (mkPos 2 2) (mkPos 2 12) (gs "Cardinal")); (EString (mkPos 2 14) (mkPos 2 31) (gs "Tom B. Erichsen"))] (mkPos 2 1) (mkPos 2 32)); (mkRow [(EString (mkPos 3 2) (mkPos 3 12) (gs "Cardinal")); (EString (mkPos 3 14) (mkPos 3 31) (gs "Tom B. Erichsen"))] (mkPos 3 1) (mkPos 3 32))]) []).
Proof. vm_compute. reflexivity. Qed.

(** parser_test.go, cases from line 1666. *)
(** add column *)
Example stmt_1666_0 : parse_stmt_source generic ([10] ++ gs "ALTER TABLE customers" ++ [10] ++ gs "ADD COLUMN email character varying(255)") = ROk
  (StAlterTable (mkPos 2 1) (mkON [(mkIdent (gs "customers") (mkPos 2 13) (mkPos 2 22))]) (ATAddColumn (mkPos 3 1) (mkColDef (mkIdent (gs "email") (mkPos 3 12) (mkPos 3 17)) (TVarchar (Some 255) (mkPos 3 18) (mkPos 3 35) (mkPos 3 40)) None [] []))).
Proof. vm_compute. reflexivity. Qed.

(** add constraint *)
Example stmt_1666_1 : parse_stmt_source generic ([10] ++ gs "ALTER TABLE products" ++ [10] ++ gs "ADD FOREIGN KEY(test_id) REFERENCES other_table(col1, col2)") = ROk
  (StAlterTable (mkPos 2 1) (mkON [(mkIdent (gs "products") (mkPos 2 13) (mkPos 2 21))]) (ATAddConstraint (mkPos 3 1) (mkTC pos0 None (TCReferential (mkPos 3 5) [(mkIdent (gs "test_id") (mkPos 3 17) (mkPos 3 24))] (mkRefKey (mkIdent (gs "other_table") (mkPos 3 37) (mkPos 3 48)) [(mkIdent (gs "col1") (mkPos 3 49) (mkPos 3 53)); (mkIdent (gs "col2") (mkPos 3 55) (mkPos 3 59))] (mkPos 3 60)))))).
Proof. vm_compute. reflexivity. Qed.

(** drop constraint *)
Example stmt_1666_2 : parse_stmt_source generic (gs "ALTER TABLE products" ++ [10] ++ gs "DROP CONSTRAINT fk CASCADE") = ROk
  (StAlterTable (mkPos 1 1) (mkON [(mkIdent (gs "products") (mkPos 1 13) (mkPos 1 21))]) (ATDropConstraint (mkIdent (gs "fk") (mkPos 2 17) (mkPos 2 19)) (mkPos 2 1) true (mkPos 2 27))).
Proof. vm_compute. reflexivity. Qed.

(** remove column *)
Example stmt_1666_3 : parse_stmt_source generic (gs "ALTER TABLE products" ++ [10] ++ gs "DROP COLUMN description CASCADE") = ROk
  (StAlterTable (mkPos 1 1) (mkON [(mkIdent (gs "products") (mkPos 1 13) (mkPos 1 21))]) (ATRemoveColumn (mkIdent (gs "description") (mkPos 2 13) (mkPos 2 24)) true (mkPos 2 32) (mkPos 2 1))).
Proof. vm_compute. reflexivity. Qed.

(** alter column *)
Example stmt_1666_4 : parse_stmt_source generic (gs "ALTER TABLE products" ++ [10] ++ gs "ALTER COLUMN created_at SET DEFAULT current_timestamp") = ROk
  (StAlterTable (mkPos 1 1) (mkON [(mkIdent (gs "products") (mkPos 1 13) (mkPos 1 21))]) (ATAlterColumn (mkIdent (gs "created_at") (mkPos 2 14) (mkPos 2 24)) (mkPos 2 1) (ACSetDefault (mkPos 2 25) (EIdent (mkIdent (gs "current_timestamp") (mkPos 2 37) (mkPos 2 54)))))).
Proof. vm_compute. reflexivity. Qed.

(** pg change type *)
Example stmt_1666_5 : parse_stmt_source generic (gs "ALTER TABLE products" ++ [10] ++ gs "ALTER COLUMN number TYPE numeric(255,10)") = ROk
  (StAlterTable (mkPos 1 1) (mkON [(mkIdent (gs "products") (mkPos 1 13) (mkPos 1 21))]) (ATAlterColumn (mkIdent (gs "number") (mkPos 2 14) (mkPos 2 20)) (mkPos 2 1) (ACType (mkPos 2 21) (TDecimal (Some 255) (Some 10) (mkPos 2 26) (mkPos 2 41) false pos0)))).
Proof. vm_compute. reflexivity. Qed.

(** parser_test.go, cases from line 1841. *)
(** simple case *)
Example stmt_1841_0 : parse_stmt_source generic (gs "UPDATE customers SET contract_name = 'Alfred Schmidt', city = 'Frankfurt' WHERE customer_id = 1") = ROk
  (StUpdate (mkPos 1 1) (mkON [(mkIdent (gs "customers") (mkPos 1 8) (mkPos 1 17))]) [(mkAssign (mkIdent (gs "contract_name") (mkPos 1 22) (mkPos 1 35)) (EString (mkPos 1 38) (mkPos 1 54) (gs "Alfred Schmidt"))); (mkAssign (mkIdent (gs "city") (mkPos 1 56) (mkPos 1 60)) (EString (mkPos 1 63) (mkPos 1 74) (gs "Frankfurt")))] (Some (EBinary (EIdent (mkIdent (gs "customer_id") (mkPos 1 81) (mkPos 1 92))) (mkOp OEq (mkPos 1 93) (mkPos 1 94)) (ELong (mkLong (mkPos 1 95) (mkPos 1 96) 1))))).
Proof. vm_compute. reflexivity. Qed.

(** parser_test.go, cases from line 1951. *)
Example file_1951_0 : comments_of (gs "--comment" ++ [10] ++ gs "select 1 from test;") = Some
  [[(mkComment (gs "comment") (mkPos 1 1) (mkPos 1 10))]].
Proof. vm_compute. reflexivity. Qed.

Example file_1951_1 : comments_of ([10] ++ gs "create table account (" ++ [10] ++ gs "    account_id serial primary key,  --aaa" ++ [10; 9] ++ gs "/*bbb*/" ++ [10] ++ gs "    name varchar(255) not null," ++ [10] ++ gs "    email /*ccc*/ varchar(255) unique not null --ddd" ++ [10] ++ gs ");" ++ [10; 10] ++ gs "--eee" ++ [10; 10] ++ gs "/*fff" ++ [10] ++ gs "ggg" ++ [10] ++ gs "*/" ++ [10] ++ gs "select 1 from test; --hhh" ++ [10] ++ gs "/*jjj*/ --kkk" ++ [10] ++ gs "select 1 from test; /*lll*/ --mmm" ++ [10] ++ gs "--nnn" ++ [10]) = Some
  [[(mkComment (gs "aaa") (mkPos 3 37) (mkPos 3 42))]; [(mkComment (gs "bbb") (mkPos 4 5) (mkPos 4 12))]; [(mkComment (gs "ccc") (mkPos 6 11) (mkPos 6 18))]; [(mkComment (gs "ddd") (mkPos 6 48) (mkPos 6 53))]; [(mkComment (gs "eee") (mkPos 9 1) (mkPos 9 6)); (mkComment (gs "fff" ++ [10] ++ gs "ggg" ++ [10]) (mkPos 11 1) (mkPos 13 3))]; [(mkComment (gs "hhh") (mkPos 14 21) (mkPos 14 26))]; [(mkComment (gs "jjj") (mkPos 15 1) (mkPos 15 8)); (mkComment (gs "kkk") (mkPos 15 9) (mkPos 15 14))]; [(mkComment (gs "lll") (mkPos 16 21) (mkPos 16 28)); (mkComment (gs "mmm") (mkPos 16 29) (mkPos 16 34))]; [(mkComment (gs "nnn") (mkPos 17 1) (mkPos 17 6))]].
Proof. vm_compute. reflexivity. Qed.

(** sqlast/query_test.go, cases from line 14. *)
(** simple select *)
Example print_query_14_0 : builder_string (wt_setexpr (SSelect (Select false [(SIUnnamed (EIdent (mkIdent (gs "test") pos0 pos0)))] [(TRTable (mkON [(mkIdent (gs "test_table") pos0 pos0)]) None [] pos0 [] pos0)] None [] None pos0))) = (gs "SELECT test FROM test_table").
Proof. vm_compute. reflexivity. Qed.

(** where *)
Example print_query_14_2 : builder_string (wt_setexpr (SSelect (Select false [(SIUnnamed (EIdent (mkIdent (gs "test") pos0 pos0)))] [(TRTable (mkON [(mkIdent (gs "test_table") pos0 pos0)]) None [] pos0 [] pos0)] (Some (EBinary (ECompound [(mkIdent (gs "test_table") pos0 pos0); (mkIdent (gs "column1") pos0 pos0)]) (mkOp OEq pos0 pos0) (EString pos0 pos0 (gs "test")))) [] None pos0))) = (gs "SELECT test FROM test_table WHERE test_table.column1 = 'test'").
Proof. vm_compute. reflexivity. Qed.

(** count and join *)
Example print_query_14_3 : builder_string (wt_setexpr (SSelect (Select false [(SIAlias (EFunction (mkON [(mkIdent (gs "COUNT") pos0 pos0)]) [(ECompound [(mkIdent (gs "t1") pos0 pos0); (mkIdent (gs "id") pos0 pos0)])] pos0 None pos0) (mkIdent (gs "c") pos0 pos0))] [(TRQualified (TRTable (mkON [(mkIdent (gs "test_table") pos0 pos0)]) (Some (mkIdent (gs "t1") pos0 pos0)) [] pos0 [] pos0) (mkJT JLEFT pos0 pos0) (TRTable (mkON [(mkIdent (gs "test_table2") pos0 pos0)]) (Some (mkIdent (gs "t2") pos0 pos0)) [] pos0 [] pos0) (JOn (EBinary (ECompound [(mkIdent (gs "t1") pos0 pos0); (mkIdent (gs "id") pos0 pos0)]) (mkOp OEq pos0 pos0) (ECompound [(mkIdent (gs "t2") pos0 pos0); (mkIdent (gs "test_table_id") pos0 pos0)])) pos0))] None [] None pos0))) = (gs "SELECT COUNT(t1.id) AS c FROM test_table AS t1 LEFT JOIN test_table2 AS t2 ON t1.id = t2.test_table_id").
Proof. vm_compute. reflexivity. Qed.

(** group by *)
Example print_query_14_4 : builder_string (wt_setexpr (SSelect (Select false [(SIUnnamed (EFunction (mkON [(mkIdent (gs "COUNT") pos0 pos0)]) [(EIdent (mkIdent (gs "customer_id") pos0 pos0))] pos0 None pos0)); (SIQualWildcard (mkON [(mkIdent (gs "country") pos0 pos0)]))] [(TRTable (mkON [(mkIdent (gs "customers") pos0 pos0)]) None [] pos0 [] pos0)] None [(EIdent (mkIdent (gs "country") pos0 pos0))] None pos0))) = (gs "SELECT COUNT(customer_id), country.* FROM customers GROUP BY country").
Proof. vm_compute. reflexivity. Qed.

(** having *)
Example print_query_14_5 : builder_string (wt_setexpr (SSelect (Select false [(SIUnnamed (EFunction (mkON [(mkIdent (gs "COUNT") pos0 pos0)]) [(EIdent (mkIdent (gs "customer_id") pos0 pos0))] pos0 None pos0)); (SIUnnamed (EIdent (mkIdent (gs "country") pos0 pos0)))] [(TRTable (mkON [(mkIdent (gs "customers") pos0 pos0)]) None [] pos0 [] pos0)] None [(EIdent (mkIdent (gs "country") pos0 pos0))] (Some (EBinary (EFunction (mkON [(mkIdent (gs "COUNT") pos0 pos0)]) [(EIdent (mkIdent (gs "customer_id") pos0 pos0))] pos0 None pos0) (mkOp OGt pos0 pos0) (ELong (mkLong pos0 pos0 3)))) pos0))) = (gs "SELECT COUNT(customer_id), country FROM customers GROUP BY country HAVING COUNT(customer_id) > 3").
Proof. vm_compute. reflexivity. Qed.

(** sqlast/query_test.go, cases from line 206. *)
(** with cte *)
Example print_query_206_0 : sql_stmt (StQuery (Query pos0 [(CTE (mkIdent (gs "regional_sales") pos0 pos0) (Query pos0 [] (SSelect (Select false [(SIUnnamed (EIdent (mkIdent (gs "region") pos0 pos0))); (SIAlias (EFunction (mkON [(mkIdent (gs "SUM") pos0 pos0)]) [(EIdent (mkIdent (gs "amount") pos0 pos0))] pos0 None pos0) (mkIdent (gs "total_sales") pos0 pos0))] [(TRTable (mkON [(mkIdent (gs "orders") pos0 pos0)]) None [] pos0 [] pos0)] None [(EIdent (mkIdent (gs "region") pos0 pos0))] None pos0)) [] None) pos0)] (SSelect (Select false [(SIUnnamed (EIdent (mkIdent (gs "product") pos0 pos0))); (SIAlias (EFunction (mkON [(mkIdent (gs "SUM") pos0 pos0)]) [(EIdent (mkIdent (gs "quantity") pos0 pos0))] pos0 None pos0) (mkIdent (gs "product_units") pos0 pos0))] [(TRTable (mkON [(mkIdent (gs "orders") pos0 pos0)]) None [] pos0 [] pos0)] (Some (EInSubQuery (EIdent (mkIdent (gs "region") pos0 pos0)) (Query pos0 [] (SSelect (Select false [(SIUnnamed (EIdent (mkIdent (gs "region") pos0 pos0)))] [(TRTable (mkON [(mkIdent (gs "top_regions") pos0 pos0)]) None [] pos0 [] pos0)] None [] None pos0)) [] None) false pos0)) [(EIdent (mkIdent (gs "region") pos0 pos0)); (EIdent (mkIdent (gs "product") pos0 pos0))] None pos0)) [] None)) = (gs "WITH regional_sales AS (SELECT region, SUM(amount) AS total_sales FROM orders GROUP BY region) SELECT product, SUM(quantity) AS product_units FROM orders WHERE region IN (SELECT region FROM top_regions) GROUP BY region, product").
Proof. vm_compute. reflexivity. Qed.

(** order by and limit *)
Example print_query_206_1 : sql_stmt (StQuery (Query pos0 [] (SSelect (Select false [(SIUnnamed (EIdent (mkIdent (gs "product") pos0 pos0))); (SIAlias (EFunction (mkON [(mkIdent (gs "SUM") pos0 pos0)]) [(EIdent (mkIdent (gs "quantity") pos0 pos0))] pos0 None pos0) (mkIdent (gs "product_units") pos0 pos0))] [(TRTable (mkON [(mkIdent (gs "orders") pos0 pos0)]) None [] pos0 [] pos0)] (Some (EInSubQuery (EIdent (mkIdent (gs "region") pos0 pos0)) (Query pos0 [] (SSelect (Select false [(SIUnnamed (EIdent (mkIdent (gs "region") pos0 pos0)))] [(TRTable (mkON [(mkIdent (gs "top_regions") pos0 pos0)]) None [] pos0 [] pos0)] None [] None pos0)) [] None) false pos0)) [] None pos0)) [(OrderBy (EIdent (mkIdent (gs "product_units") pos0 pos0)) pos0 None)] (Some (mkLimit pos0 pos0 (Some (mkLong pos0 pos0 100)) None)))) = (gs "SELECT product, SUM(quantity) AS product_units FROM orders WHERE region IN (SELECT region FROM top_regions) ORDER BY product_units LIMIT 100").
Proof. vm_compute. reflexivity. Qed.

(** exists *)
Example print_query_206_2 : sql_stmt (StQuery (Query pos0 [] (SSelect (Select false [(SIUnnamed (EWildcard pos0))] [(TRTable (mkON [(mkIdent (gs "user") pos0 pos0)]) None [] pos0 [] pos0)] (Some (EExists true (Query pos0 [] (SSelect (Select false [(SIUnnamed (EWildcard pos0))] [(TRTable (mkON [(mkIdent (gs "user_sub") pos0 pos0)]) None [] pos0 [] pos0)] (Some (EBinary (EBinary (ECompound [(mkIdent (gs "user") pos0 pos0); (mkIdent (gs "id") pos0 pos0)]) (mkOp OEq pos0 pos0) (ECompound [(mkIdent (gs "user_sub") pos0 pos0); (mkIdent (gs "id") pos0 pos0)])) (mkOp OAnd pos0 pos0) (EBinary (ECompound [(mkIdent (gs "user_sub") pos0 pos0); (mkIdent (gs "job") pos0 pos0)]) (mkOp OEq pos0 pos0) (EString pos0 pos0 (gs "job"))))) [] None pos0)) [] None) pos0 pos0 pos0)) [] None pos0)) [] None)) = (gs "SELECT * FROM user WHERE NOT EXISTS (SELECT * FROM user_sub WHERE user.id = user_sub.id AND user_sub.job = 'job')").
Proof. vm_compute. reflexivity. Qed.

(** between / case *)
Example print_query_206_3 : sql_stmt (StQuery (Query pos0 [] (SSelect (Select false [(SIAlias (ECase pos0 pos0 None [((EBinary (EIdent (mkIdent (gs "expr1") pos0 pos0)) (mkOp OEq pos0 pos0) (EString pos0 pos0 (gs "1"))), (EString pos0 pos0 (gs "test1"))); ((EBinary (EIdent (mkIdent (gs "expr2") pos0 pos0)) (mkOp OEq pos0 pos0) (EString pos0 pos0 (gs "2"))), (EString pos0 pos0 (gs "test2")))] (Some (EString pos0 pos0 (gs "other")))) (mkIdent (gs "alias") pos0 pos0))] [(TRTable (mkON [(mkIdent (gs "user") pos0 pos0)]) None [] pos0 [] pos0)] (Some (EBetween (EIdent (mkIdent (gs "id") pos0 pos0)) false (ELong (mkLong pos0 pos0 1)) (ELong (mkLong pos0 pos0 2)))) [] None pos0)) [] None)) = (gs "SELECT CASE WHEN expr1 = '1' THEN 'test1' WHEN expr2 = '2' THEN 'test2' ELSE 'other' END AS alias FROM user WHERE id BETWEEN 1 AND 2").
Proof. vm_compute. reflexivity. Qed.

(** sqlast/query_test.go, cases from line 449. *)
(** sqlast/stmt_test.go, cases from line 16. *)
(** simple case *)
Example print_stmt_16_0 : sql_stmt (StInsert pos0 (mkON [(mkIdent (gs "customers") pos0 pos0)]) [(mkIdent (gs "customer_name") pos0 pos0); (mkIdent (gs "contract_name") pos0 pos0)] (ISConstructor pos0 [(mkRow [(EString pos0 pos0 (gs "Cardinal")); (EString pos0 pos0 (gs "Tom B. Erichsen"))] pos0 pos0)]) []) = (gs "INSERT INTO customers (customer_name, contract_name) VALUES ('Cardinal', 'Tom B. Erichsen')").
Proof. vm_compute. reflexivity. Qed.

(** multi row case *)
Example print_stmt_16_1 : sql_stmt (StInsert pos0 (mkON [(mkIdent (gs "customers") pos0 pos0)]) [(mkIdent (gs "customer_name") pos0 pos0); (mkIdent (gs "contract_name") pos0 pos0)] (ISConstructor pos0 [(mkRow [(EString pos0 pos0 (gs "Cardinal")); (EString pos0 pos0 (gs "Tom B. Erichsen"))] pos0 pos0); (mkRow [(EString pos0 pos0 (gs "Cardinal2")); (EString pos0 pos0 (gs "Tom B. Erichsen2"))] pos0 pos0); (mkRow [(EString pos0 pos0 (gs "Cardinal3")); (EString pos0 pos0 (gs "Tom B. Erichsen3"))] pos0 pos0)]) []) = (gs "INSERT INTO customers (customer_name, contract_name) VALUES ('Cardinal', 'Tom B. Erichsen'), ('Cardinal2', 'Tom B. Erichsen2'), ('Cardinal3', 'Tom B. Erichsen3')").
Proof. vm_compute. reflexivity. Qed.

(** sqlast/stmt_test.go, cases from line 115. *)
(** simple case *)
Example print_stmt_115_0 : sql_stmt (StUpdate pos0 (mkON [(mkIdent (gs "customers") pos0 pos0)]) [(mkAssign (mkIdent (gs "contract_name") pos0 pos0) (EString pos0 pos0 (gs "Alfred Schmidt"))); (mkAssign (mkIdent (gs "city") pos0 pos0) (EString pos0 pos0 (gs "Frankfurt")))] (Some (EBinary (EIdent (mkIdent (gs "customer_id") pos0 pos0)) (mkOp OEq pos0 pos0) (ELong (mkLong pos0 pos0 1))))) = (gs "UPDATE customers SET contract_name = 'Alfred Schmidt', city = 'Frankfurt' WHERE customer_id = 1").
Proof. vm_compute. reflexivity. Qed.

(** sqlast/stmt_test.go, cases from line 155. *)
(** simple case *)
Example print_stmt_155_0 : sql_stmt (StDelete pos0 (mkON [(mkIdent (gs "customers") pos0 pos0)]) (Some (EBinary (EIdent (mkIdent (gs "customer_id") pos0 pos0)) (mkOp OEq pos0 pos0) (ELong (mkLong pos0 pos0 1))))) = (gs "DELETE FROM customers WHERE customer_id = 1").
Proof. vm_compute. reflexivity. Qed.

(** sqlast/stmt_test.go, cases from line 185. *)
(** sqlast/stmt_test.go, cases from line 241. *)
(** simple case *)
Example print_stmt_241_0 : sql_stmt (StCreateTable pos0 (mkON [(mkIdent (gs "persons") pos0 pos0)]) [(TEColumn (mkColDef (mkIdent (gs "person_id") pos0 pos0) (TInt pos0 pos0 false pos0) None [] [(mkCC None pos0 (CCUnique true pos0 pos0 pos0)); (mkCC None pos0 (CCNotNull pos0 pos0))])); (TEColumn (mkColDef (mkIdent (gs "last_name") pos0 pos0) (TVarchar (Some 255) pos0 pos0 pos0) None [] [(mkCC None pos0 (CCNotNull pos0 pos0))])); (TEColumn (mkColDef (mkIdent (gs "test_id") pos0 pos0) (TInt pos0 pos0 false pos0) None [] [(mkCC None pos0 (CCNotNull pos0 pos0)); (mkCC None pos0 (CCReferences pos0 pos0 (mkON [(mkIdent (gs "test") pos0 pos0)]) [(mkIdent (gs "id1") pos0 pos0); (mkIdent (gs "id2") pos0 pos0)]))])); (TEColumn (mkColDef (mkIdent (gs "email") pos0 pos0) (TVarchar (Some 255) pos0 pos0 pos0) None [] [(mkCC None pos0 (CCUnique false pos0 pos0 pos0)); (mkCC None pos0 (CCNotNull pos0 pos0))])); (TEColumn (mkColDef (mkIdent (gs "age") pos0 pos0) (TInt pos0 pos0 false pos0) None [] [(mkCC None pos0 (CCNotNull pos0 pos0)); (mkCC None pos0 (CCCheck (EBinary (EBinary (EIdent (mkIdent (gs "age") pos0 pos0)) (mkOp OGt pos0 pos0) (ELong (mkLong pos0 pos0 0))) (mkOp OAnd pos0 pos0) (EBinary (EIdent (mkIdent (gs "age") pos0 pos0)) (mkOp OLt pos0 pos0) (ELong (mkLong pos0 pos0 100)))) pos0 pos0))])); (TEColumn (mkColDef (mkIdent (gs "created_at") pos0 pos0) (TTimestamp false pos0 pos0) (Some (EIdent (mkIdent (gs "CURRENT_TIMESTAMP") pos0 pos0))) [] [(mkCC None pos0 (CCNotNull pos0 pos0))]))] false []) = (gs "CREATE TABLE persons (person_id int PRIMARY KEY NOT NULL, last_name character varying(255) NOT NULL, test_id int NOT NULL REFERENCES test(id1, id2), email character varying(255) UNIQUE NOT NULL, age int NOT NULL CHECK(age > 0 AND age < 100), created_at timestamp DEFAULT CURRENT_TIMESTAMP NOT NULL)").
Proof. vm_compute. reflexivity. Qed.

(** with table constraint *)
Example print_stmt_241_1 : sql_stmt (StCreateTable pos0 (mkON [(mkIdent (gs "persons") pos0 pos0)]) [(TEColumn (mkColDef (mkIdent (gs "person_id") pos0 pos0) (TInt pos0 pos0 false pos0) None [] [])); (TEConstraint (mkTC pos0 (Some (mkIdent (gs "production") pos0 pos0)) (TCUnique false pos0 pos0 pos0 [(mkIdent (gs "test_column") pos0 pos0)]))); (TEConstraint (mkTC pos0 None (TCUnique true pos0 pos0 pos0 [(mkIdent (gs "person_id") pos0 pos0)]))); (TEConstraint (mkTC pos0 None (TCCheck pos0 pos0 (EBinary (EIdent (mkIdent (gs "id") pos0 pos0)) (mkOp OGt pos0 pos0) (ELong (mkLong pos0 pos0 100)))))); (TEConstraint (mkTC pos0 None (TCReferential pos0 [(mkIdent (gs "test_id") pos0 pos0)] (mkRefKey (mkIdent (gs "other_table") pos0 pos0) [(mkIdent (gs "col1") pos0 pos0); (mkIdent (gs "col2") pos0 pos0)] pos0))))] false []) = (gs "CREATE TABLE persons (person_id int, CONSTRAINT production UNIQUE(test_column), PRIMARY KEY(person_id), CHECK(id > 100), FOREIGN KEY(test_id) REFERENCES other_table(col1, col2))").
Proof. vm_compute. reflexivity. Qed.

(** NotExists *)
Example print_stmt_241_2 : sql_stmt (StCreateTable pos0 (mkON [(mkIdent (gs "persons") pos0 pos0)]) [(TEColumn (mkColDef (mkIdent (gs "person_id") pos0 pos0) (TInt pos0 pos0 false pos0) None [] [(mkCC None pos0 (CCUnique true pos0 pos0 pos0)); (mkCC None pos0 (CCNotNull pos0 pos0))])); (TEColumn (mkColDef (mkIdent (gs "last_name") pos0 pos0) (TVarchar (Some 255) pos0 pos0 pos0) None [] [(mkCC None pos0 (CCNotNull pos0 pos0))])); (TEColumn (mkColDef (mkIdent (gs "created_at") pos0 pos0) (TTimestamp false pos0 pos0) (Some (EIdent (mkIdent (gs "CURRENT_TIMESTAMP") pos0 pos0))) [] [(mkCC None pos0 (CCNotNull pos0 pos0))]))] true []) = (gs "CREATE TABLE IF NOT EXISTS persons (person_id int PRIMARY KEY NOT NULL, last_name character varying(255) NOT NULL, created_at timestamp DEFAULT CURRENT_TIMESTAMP NOT NULL)").
Proof. vm_compute. reflexivity. Qed.

(** sqlast/stmt_test.go, cases from line 461. *)
(** add column *)
Example print_stmt_461_0 : sql_stmt (StAlterTable pos0 (mkON [(mkIdent (gs "customers") pos0 pos0)]) (ATAddColumn pos0 (mkColDef (mkIdent (gs "email") pos0 pos0) (TVarchar (Some 255) pos0 pos0 pos0) None [] []))) = (gs "ALTER TABLE customers ADD COLUMN email character varying(255)").
Proof. vm_compute. reflexivity. Qed.

(** add column over uint8 *)
Example print_stmt_461_1 : sql_stmt (StAlterTable pos0 (mkON [(mkIdent (gs "customers") pos0 pos0)]) (ATAddColumn pos0 (mkColDef (mkIdent (gs "email") pos0 pos0) (TVarchar (Some 256) pos0 pos0 pos0) None [] []))) = (gs "ALTER TABLE customers ADD COLUMN email character varying(256)").
Proof. vm_compute. reflexivity. Qed.

(** remove column *)
Example print_stmt_461_2 : sql_stmt (StAlterTable pos0 (mkON [(mkIdent (gs "products") pos0 pos0)]) (ATRemoveColumn (mkIdent (gs "description") pos0 pos0) true pos0 pos0)) = (gs "ALTER TABLE products DROP COLUMN description CASCADE").
Proof. vm_compute. reflexivity. Qed.

(** add constraint *)
Example print_stmt_461_3 : sql_stmt (StAlterTable pos0 (mkON [(mkIdent (gs "products") pos0 pos0)]) (ATAddConstraint pos0 (mkTC pos0 None (TCReferential pos0 [(mkIdent (gs "test_id") pos0 pos0)] (mkRefKey (mkIdent (gs "other_table") pos0 pos0) [(mkIdent (gs "col1") pos0 pos0); (mkIdent (gs "col2") pos0 pos0)] pos0))))) = (gs "ALTER TABLE products ADD FOREIGN KEY(test_id) REFERENCES other_table(col1, col2)").
Proof. vm_compute. reflexivity. Qed.

(** alter column *)
Example print_stmt_461_4 : sql_stmt (StAlterTable pos0 (mkON [(mkIdent (gs "products") pos0 pos0)]) (ATAlterColumn (mkIdent (gs "created_at") pos0 pos0) pos0 (ACSetDefault pos0 (EIdent (mkIdent (gs "current_timestamp") pos0 pos0))))) = (gs "ALTER TABLE products ALTER COLUMN created_at SET DEFAULT current_timestamp").
Proof. vm_compute. reflexivity. Qed.

(** pg change type *)
Example print_stmt_461_5 : sql_stmt (StAlterTable pos0 (mkON [(mkIdent (gs "products") pos0 pos0)]) (ATAlterColumn (mkIdent (gs "number") pos0 pos0) pos0 (ACType pos0 (TDecimal (Some 255) (Some 10) pos0 pos0 false pos0)))) = (gs "ALTER TABLE products ALTER COLUMN number TYPE numeric(255,10)").
Proof. vm_compute. reflexivity. Qed.

(** sqlast/stmt_test.go, cases from line 573. *)
(** create index *)
Example print_stmt_573_0 : sql_stmt (StCreateIndex pos0 (mkON [(mkIdent (gs "customers") pos0 pos0)]) false None None [(mkIdent (gs "name") pos0 pos0)] pos0 None) = (gs "CREATE INDEX ON customers (name)").
Proof. vm_compute. reflexivity. Qed.

(** create unique index *)
Example print_stmt_573_1 : sql_stmt (StCreateIndex pos0 (mkON [(mkIdent (gs "customers") pos0 pos0)]) true None None [(mkIdent (gs "name") pos0 pos0)] pos0 None) = (gs "CREATE UNIQUE INDEX ON customers (name)").
Proof. vm_compute. reflexivity. Qed.

(** create index with name *)
Example print_stmt_573_2 : sql_stmt (StCreateIndex pos0 (mkON [(mkIdent (gs "customers") pos0 pos0)]) true (Some (mkIdent (gs "customers_idx") pos0 pos0)) None [(mkIdent (gs "name") pos0 pos0); (mkIdent (gs "email") pos0 pos0)] pos0 None) = (gs "CREATE UNIQUE INDEX customers_idx ON customers (name, email)").
Proof. vm_compute. reflexivity. Qed.

(** create index with name *)
Example print_stmt_573_3 : sql_stmt (StCreateIndex pos0 (mkON [(mkIdent (gs "customers") pos0 pos0)]) true (Some (mkIdent (gs "customers_idx") pos0 pos0)) (Some (mkIdent (gs "gist") pos0 pos0)) [(mkIdent (gs "name") pos0 pos0)] pos0 None) = (gs "CREATE UNIQUE INDEX customers_idx ON customers USING gist (name)").
Proof. vm_compute. reflexivity. Qed.

(** create partial index with name *)
Example print_stmt_573_4 : sql_stmt (StCreateIndex pos0 (mkON [(mkIdent (gs "customers") pos0 pos0)]) true (Some (mkIdent (gs "customers_idx") pos0 pos0)) (Some (mkIdent (gs "gist") pos0 pos0)) [(mkIdent (gs "name") pos0 pos0)] pos0 (Some (EBinary (EIdent (mkIdent (gs "name") pos0 pos0)) (mkOp OEq pos0 pos0) (EString pos0 pos0 (gs "test"))))) = (gs "CREATE UNIQUE INDEX customers_idx ON customers USING gist (name) WHERE name = 'test'").
Proof. vm_compute. reflexivity. Qed.

(** e2e/e2e_test.go on e2e/testdata. *)
Example e2e_alter_add_column : e2e (gs "ALTER TABLE test1 ADD COLUMN NAME VARCHAR NOT NULL;").
Proof. vm_compute. reflexivity. Qed.

Example e2e_alter_drop_column : e2e (gs "ALTER TABLE TEST1 DROP COLUMN name;").
Proof. vm_compute. reflexivity. Qed.

Example e2e_alter_drop_default : e2e (gs "ALTER TABLE test1 ALTER COLUMN NAME DROP DEFAULT;").
Proof. vm_compute. reflexivity. Qed.

Example e2e_alter_drop_not_null : e2e (gs "ALTER TABLE test1 ALTER COLUMN NAME DROP NOT NULL;").
Proof. vm_compute. reflexivity. Qed.

Example e2e_alter_edit_type : e2e (gs "ALTER TABLE test1 ALTER COLUMN NAME TYPE TEXT;").
Proof. vm_compute. reflexivity. Qed.

Example e2e_alter_set_default : e2e (gs "ALTER TABLE test1 ALTER COLUMN NAME SET DEFAULT 10;").
Proof. vm_compute. reflexivity. Qed.

Example e2e_alter_set_not_null : e2e (gs "ALTER TABLE test1 ALTER COLUMN NAME SET NOT NULL;").
Proof. vm_compute. reflexivity. Qed.

Example e2e_create_index_partial_index : e2e (gs "CREATE UNIQUE INDEX customers_idx ON customers USING gist (name) WHERE name = 'test';").
Proof. vm_compute. reflexivity. Qed.

Example e2e_create_index_unique_index : e2e (gs "CREATE UNIQUE INDEX customers_idx ON customers USING gist (name);").
Proof. vm_compute. reflexivity. Qed.

Example e2e_create_index_using_index : e2e (gs "CREATE UNIQUE INDEX customers_idx ON customers (name, email);").
Proof. vm_compute. reflexivity. Qed.

Example e2e_create_table_create : e2e (gs "CREATE TABLE test (" ++ [10] ++ gs "    col1 int primary key," ++ [10] ++ gs "    col2 char(10)," ++ [10] ++ gs "    col3 VARCHAR," ++ [10] ++ gs "    col4 VARCHAR(255)," ++ [10] ++ gs "    col5 uuid NOT NULl," ++ [10] ++ gs "    col6 smallint check(col6 < 10)," ++ [10] ++ gs "    col7 bigint UNIQUE," ++ [10] ++ gs "    col8 integer constraint test_constraint check (10 < col8 and col8 < 100)," ++ [10] ++ gs "    col9 serial," ++ [10] ++ gs "    col10 character varying," ++ [10] ++ gs "    col11 real references test2(col1)," ++ [10] ++ gs "    col12 double precision," ++ [10] ++ gs "    col13 date," ++ [10] ++ gs "    col14 time," ++ [10] ++ gs "    col15 timestamp default current_timestamp," ++ [10] ++ gs "    col16 boolean default false," ++ [10] ++ gs "    col17 numeric(10, 10)," ++ [10] ++ gs "    col18 text," ++ [10] ++ gs "    foreign key (col1, col2) references test2(col1, col2)," ++ [10] ++ gs "    unique key (col1, col2)," ++ [10] ++ gs "    CONSTRAINT test_constraint check(col1 > 10)" ++ [10] ++ gs ")").
Proof. vm_compute. reflexivity. Qed.

Example e2e_create_table_my_create : e2e (gs "-- from https://github.com/isucon/isucon8-qualify/blob/master/db/schema.sql" ++ [10; 10] ++ gs "CREATE TABLE IF NOT EXISTS users (" ++ [10] ++ gs "    id          INTEGER UNSIGNED PRIMARY KEY AUTO_INCREMENT," ++ [10] ++ gs "    nickname    VARCHAR(128) NOT NULL," ++ [10] ++ gs "    login_name  VARCHAR(128) NOT NULL," ++ [10] ++ gs "    pass_hash   VARCHAR(128) NOT NULL" ++ [10] ++ gs ") ENGINE=InnoDB DEFAULT CHARSET utf8mb4;" ++ [10]).
Proof. vm_compute. reflexivity. Qed.

Example e2e_create_table_pg_dump : e2e (gs "CREATE TABLE public.version (" ++ [10] ++ gs "    version_id uuid DEFAULT public.uuid_generate_v4() NOT NULL," ++ [10] ++ gs "    project_id uuid NOT NULL," ++ [10] ++ gs "    name character varying(256) NOT NULL," ++ [10] ++ gs "    created_at timestamp without time zone DEFAULT now() NOT NULL" ++ [10] ++ gs ");").
Proof. vm_compute. reflexivity. Qed.

Example e2e_drop_index_drop : e2e (gs "DROP INDEX title_idx,title_idx2,title_idx3;").
Proof. vm_compute. reflexivity. Qed.

Example e2e_drop_index_single : e2e (gs "DROP INDEX title_idx;").
Proof. vm_compute. reflexivity. Qed.

Example e2e_drop_table_drop_table : e2e (gs "DROP TABLE IF EXISTS TEST CASCADE;").
Proof. vm_compute. reflexivity. Qed.

Example e2e_insert_multi_values : e2e (gs "-- from https://dev.mysql.com/doc/refman/8.0/en/insert.html" ++ [10] ++ gs "INSERT INTO tbl_name (a,b,c) VALUES(1,2,3),(4,5,6),(7,8,9);").
Proof. vm_compute. reflexivity. Qed.

Example e2e_insert_on_duplicate_key : e2e (gs "-- from: https://dev.mysql.com/doc/refman/8.0/en/insert-on-duplicate.html" ++ [10] ++ gs "INSERT INTO t1 (a,b,c) VALUES (1,2,3) ON DUPLICATE KEY UPDATE c=c+1;" ++ [10]).
Proof. vm_compute. reflexivity. Qed.

Example e2e_insert_simple : e2e (gs "-- from https://dev.mysql.com/doc/refman/8.0/en/insert.html" ++ [10] ++ gs "INSERT INTO tbl_name (col1,col2) VALUES(15,col1*2);").
Proof. vm_compute. reflexivity. Qed.

Example e2e_insert_with_select : e2e (gs "INSERT INTO tbl_name (a,b,c) SELECT * from tbl_name2;").
Proof. vm_compute. reflexivity. Qed.

Example e2e_select_between_in : e2e (gs "SELECT * FROM Products" ++ [10] ++ gs "WHERE Price BETWEEN 10 AND 20" ++ [10] ++ gs "AND NOT CategoryID IN (1,2,3);").
Proof. vm_compute. reflexivity. Qed.

Example e2e_select_distinct : e2e (gs "SELECT Count(*) AS DistinctCountries" ++ [10] ++ gs "FROM (SELECT DISTINCT Country FROM Customers);" ++ [10]).
Proof. vm_compute. reflexivity. Qed.

Example e2e_select_exists : e2e (gs "SELECT column_name(s)" ++ [10] ++ gs "FROM table_name" ++ [10] ++ gs "WHERE EXISTS" ++ [10] ++ gs "(SELECT column_name FROM table_name WHERE condition);").
Proof. vm_compute. reflexivity. Qed.

Example e2e_select_group_by_join : e2e (gs "SELECT Shippers.ShipperName,COUNT(Orders.OrderID) AS NumberOfOrders FROM Orders" ++ [10] ++ gs "LEFT JOIN Shippers ON Orders.ShipperID = Shippers.ShipperID" ++ [10] ++ gs "GROUP BY ShipperName;" ++ [10]).
Proof. vm_compute. reflexivity. Qed.

Example e2e_select_having_orderby : e2e (gs "SELECT COUNT(CustomerID), Country" ++ [10] ++ gs "FROM Customers" ++ [10] ++ gs "GROUP BY Country" ++ [10] ++ gs "HAVING COUNT(CustomerID) > 5" ++ [10] ++ gs "ORDER BY COUNT(CustomerID) DESC;").
Proof. vm_compute. reflexivity. Qed.

Example e2e_select_inner_join : e2e (gs "SELECT Orders.OrderID, Customers.CustomerName" ++ [10] ++ gs "FROM Orders" ++ [10] ++ gs "INNER JOIN Customers ON Orders.CustomerID = Customers.CustomerID;" ++ [10]).
Proof. vm_compute. reflexivity. Qed.

Example e2e_select_lateral_join : e2e (gs "SELECT n.id, n.name, t.max, t.min FROM node n," ++ [10] ++ gs "    LATERAL (" ++ [10] ++ gs "        SELECT max(usage) as max, min(usage) as min" ++ [10] ++ gs "        FROM node_mon m" ++ [10] ++ gs "        WHERE m.id = n.id" ++ [10] ++ gs "    ) t;" ++ [10]).
Proof. vm_compute. reflexivity. Qed.

Example e2e_select_left_join : e2e (gs "SELECT Customers.CustomerName, Orders.OrderID" ++ [10] ++ gs "FROM Customers" ++ [10] ++ gs "LEFT JOIN Orders" ++ [10] ++ gs "ON Customers.CustomerID=Orders.CustomerID" ++ [10] ++ gs "ORDER BY Customers.CustomerName;" ++ [10]).
Proof. vm_compute. reflexivity. Qed.

Example e2e_select_like : e2e (gs "SELECT * FROM Customers" ++ [10] ++ gs "WHERE ContactName LIKE 'a%o';").
Proof. vm_compute. reflexivity. Qed.

Example e2e_select_limit_and_offset : e2e (gs "SELECT product, SUM(quantity) AS product_units FROM orders" ++ [10; 9] ++ gs "WHERE region IN (SELECT region FROM top_regions)" ++ [10; 9] ++ gs "ORDER BY product_units LIMIT 100 OFFSET 20;").
Proof. vm_compute. reflexivity. Qed.

Example e2e_select_moving_average : e2e (gs "-- from https://support.treasuredata.com/hc/ja/articles/216392117-Window-%E9%96%A2%E6%95%B0%E3%82%92%E4%BD%BF%E3%81%84%E3%81%93%E3%81%AA%E3%81%99-%E9%9B%86%E7%B4%84%E9%96%A2%E6%95%B0%E7%B3%BB-" ++ [10] ++ gs "SELECT m, d, goods_id, sales, AVG(sales) OVER (PARTITION BY goods_id,m ORDER BY d ASC ROWS BETWEEN 4 PRECEDING AND CURRENT ROW) as sales_moving_avg" ++ [10] ++ gs "FROM" ++ [10] ++ gs "(" ++ [10] ++ gs "  SELECT" ++ [10] ++ gs "    TD_TIME_FORMAT(time,'yyyy-MM-dd','JST') AS d, TD_TIME_FORMAT(time,'yyyy-MM','JST') AS m, goods_id, SUM(price*amount) AS sales" ++ [10] ++ gs "  FROM  sales_slip" ++ [10] ++ gs "  GROUP BY TD_TIME_FORMAT(time,'yyyy-MM-dd','JST'), TD_TIME_FORMAT(time,'yyyy-MM','JST'), goods_id" ++ [10] ++ gs ") t" ++ [10] ++ gs "ORDER BY goods_id, m, d").
Proof. vm_compute. reflexivity. Qed.

Example e2e_select_multi_join : e2e (gs "select count(*) from project" ++ [10] ++ gs "    join scenario ON scenario.project_id = project.project_id" ++ [10] ++ gs "    right outer join scenario_version ON scenario_version.scenario_id = scenario.scenario_id" ++ [10] ++ gs "    left outer join compare_log ON compare_log.left_scenario_version_id = scenario_version.scenario_version_id" ++ [10] ++ gs "    full outer join scenario_version scenario_version2 ON scenario_version2.scenario_version_id = compare_log.right_scenario_version_id" ++ [10] ++ gs "    inner join snapshot ON snapshot.scenario_version_id = scenario_version2.scenario_version_id" ++ [10] ++ gs "    natural join scenario_version as s3;").
Proof. vm_compute. reflexivity. Qed.

Example e2e_select_multi_table : e2e (gs "SELECT * FROM Customers, Items, Blogs" ++ [10] ++ gs "WHERE ContactName LIKE 'a%o';").
Proof. vm_compute. reflexivity. Qed.

Example e2e_select_notin : e2e (gs "SELECT * FROM Customers" ++ [10] ++ gs "WHERE Country NOT IN ('Germany', 'France', 'UK');").
Proof. vm_compute. reflexivity. Qed.

Example e2e_select_right_join : e2e (gs "SELECT Orders.OrderID, Employees.LastName, Employees.FirstName" ++ [10] ++ gs "FROM Orders" ++ [10] ++ gs "RIGHT JOIN Employees" ++ [10] ++ gs "ON Orders.EmployeeID = Employees.EmployeeID" ++ [10] ++ gs "ORDER BY Orders.OrderID;" ++ [10]).
Proof. vm_compute. reflexivity. Qed.

Example e2e_select_row_number : e2e (gs "-- from https://mode.com/sql-tutorial/sql-window-functions/" ++ [10] ++ gs "SELECT start_terminal," ++ [10] ++ gs "       start_time," ++ [10] ++ gs "       duration_seconds," ++ [10] ++ gs "       ROW_NUMBER() OVER (ORDER BY start_time)" ++ [10] ++ gs "                    AS row_number" ++ [10] ++ gs "  FROM tutorial.dc_bikeshare_q1_2012" ++ [10] ++ gs " WHERE start_time < '2012-01-08'").
Proof. vm_compute. reflexivity. Qed.

Example e2e_select_running_sum : e2e (gs "-- from https://support.treasuredata.com/hc/ja/articles/216392117-Window-%E9%96%A2%E6%95%B0%E3%82%92%E4%BD%BF%E3%81%84%E3%81%93%E3%81%AA%E3%81%99-%E9%9B%86%E7%B4%84%E9%96%A2%E6%95%B0%E7%B3%BB-" ++ [10] ++ gs "SELECT m, d, goods_id, sales, SUM(sales) OVER (PARTITION BY goods_id,m ORDER BY d ASC ROWS BETWEEN UNBOUNDED PRECEDING AND CURRENT ROW) as sales_running_sum" ++ [10] ++ gs "FROM" ++ [10] ++ gs "(" ++ [10] ++ gs "  SELECT" ++ [10] ++ gs "    TD_TIME_FORMAT(time,'yyyy-MM-dd','JST') AS d, TD_TIME_FORMAT(time,'yyyy-MM','JST') AS m, goods_id, SUM(price*amount) AS sales" ++ [10] ++ gs "  FROM  sales_slip" ++ [10] ++ gs "  GROUP BY TD_TIME_FORMAT(time,'yyyy-MM-dd','JST'), TD_TIME_FORMAT(time,'yyyy-MM','JST'), goods_id" ++ [10] ++ gs ") t" ++ [10] ++ gs "ORDER BY goods_id, m, d").
Proof. vm_compute. reflexivity. Qed.

Example e2e_select_sql_between : e2e (gs "SELECT a, SUM(b) OVER (PARTITION BY c ORDER BY d ROWS BETWEEN UNBOUNDED PRECEDING AND CURRENT ROW)" ++ [10] ++ gs "FROM T;").
Proof. vm_compute. reflexivity. Qed.

Example e2e_select_union_all_where : e2e (gs "SELECT City, Country FROM Customers" ++ [10] ++ gs "WHERE Country='Germany'" ++ [10] ++ gs "UNION ALL" ++ [10] ++ gs "SELECT City, Country FROM Suppliers" ++ [10] ++ gs "WHERE Country='Germany'" ++ [10] ++ gs "ORDER BY City;").
Proof. vm_compute. reflexivity. Qed.

Example e2e_select_where_and_or : e2e (gs "SELECT * FROM Customers" ++ [10] ++ gs "WHERE Country='Germany' AND (City='Berlin' OR City='M" ++ [252] ++ gs "nchen');" ++ [10]).
Proof. vm_compute. reflexivity. Qed.

Example e2e_select_window : e2e (gs "-- from https://mode.com/sql-tutorial/sql-window-functions/" ++ [10] ++ gs "SELECT start_terminal," ++ [10] ++ gs "       duration_seconds," ++ [10] ++ gs "       SUM(duration_seconds) OVER" ++ [10] ++ gs "         (PARTITION BY start_terminal ORDER BY start_time)" ++ [10] ++ gs "         AS running_total" ++ [10] ++ gs "  FROM tutorial.dc_bikeshare_q1_2012" ++ [10] ++ gs " WHERE start_time < '2012-01-08'").
Proof. vm_compute. reflexivity. Qed.

(** The position behind the last token (Tokenizer.Pos, sqltoken/tokenizer.go). *)
Definition last_pos (src : gostring) : option pos :=
  match tokenize generic true src with TOk l => option_map tto (List.last (map Some l) None) | _ => None end.

(** The groups that NewCommentMap gives to the n-th node of a sort. *)
Definition stmt_key (n : nat) : nat * (any -> bool) := (n, fun x => match x with AQuery _ | AStmt _ => true | _ => false end).
Definition elem_key (n : nat) : nat * (any -> bool) := (n, fun x => match x with AElem _ => true | _ => false end).
Definition attached_to (key : nat * (any -> bool)) (src : gostring) : option (list commentgroup) :=
  match parse_file generic src with
  | ROk f =>
      match NewCommentMap f, node_list f with
      | CMMap m, Some l =>
          option_map (fun p => cm_get m (fst p))
            (nth_error (filter (fun p => snd key (snd p)) (combine (seq 0 (List.length l)) l)) (fst key))
      | _, _ => None
      end
  | _ => None
  end.

(** Inspect and Apply with callbacks that always answer true. *)
Definition astutil (src : gostring) : Prop :=
  match parse_stmt_source generic src with
  | ROk s =>
      let x := of_stmt s in
      snd (Walk (fun (u : unit) y => (u, match y with Some _ => true | None => false end)) x tt) = WDone /\
      snd (Apply (Some (fun (u : unit) _ _ => (u, [], true))) None (S (Walk.size x)) [] [0%nat] (memory [x]) tt) = ADone
  | _ => False
  end.

(** sqltoken/tokenizer_test.go:495-552: the position behind "1 op 1". *)
Example positions_operators : map (fun op => last_pos (gs "1 " ++ op ++ gs " 1"))
  [(gs "+"); (gs "-"); (gs "%"); (gs "*"); (gs "/"); (gs ">"); (gs "="); (gs "<"); (gs "<="); (gs "<>"); (gs ">=")] =
  [Some (mkPos 1 6); Some (mkPos 1 6); Some (mkPos 1 6); Some (mkPos 1 6); Some (mkPos 1 6); Some (mkPos 1 6); Some (mkPos 1 6); Some (mkPos 1 6); Some (mkPos 1 7); Some (mkPos 1 7); Some (mkPos 1 7)].
Proof. vm_compute. reflexivity. Qed.

(** sqltoken/tokenizer_test.go:553-615. *)
Example position_0 : last_pos (gs "1+1" ++ [10] ++ gs "asdf") = Some (mkPos 2 5).
Proof. vm_compute. reflexivity. Qed.

Example position_1 : last_pos (gs "-- comments") = Some (mkPos 1 12).
Proof. vm_compute. reflexivity. Qed.

Example position_2 : last_pos (gs "select count(id) from account") = Some (mkPos 1 30).
Proof. vm_compute. reflexivity. Qed.

Example position_3 : last_pos (gs "select count(id)" ++ [10] ++ gs "from account " ++ [10] ++ gs "where name like '%test%'") = Some (mkPos 3 25).
Proof. vm_compute. reflexivity. Qed.

Example position_4 : last_pos (gs "/*" ++ [10] ++ gs "test comment" ++ [10] ++ gs "test comment" ++ [10] ++ gs "*/") = Some (mkPos 4 3).
Proof. vm_compute. reflexivity. Qed.

Example position_5 : last_pos (gs "/* asdf */") = Some (mkPos 1 11).
Proof. vm_compute. reflexivity. Qed.

Example position_6 : last_pos (gs "select * from /* test table */ test_table where id != 123") = Some (mkPos 1 58).
Proof. vm_compute. reflexivity. Qed.

(** sqltoken/tokenizer_test.go:617-647. *)
Example illegal_0 : tokenize generic true (gs "'test") = TErr.
Proof. vm_compute. reflexivity. Qed.

Example illegal_1 : tokenize generic true ([10] ++ gs "/* test" ++ [10] ++ gs "test" ++ [10]) = TErr.
Proof. vm_compute. reflexivity. Qed.

(** parser_test.go:1906-1942. *)
Example three_statements :
  match parse_source generic ([10] ++ gs "create table account (" ++ [10] ++ gs "    account_id serial primary key," ++ [10] ++ gs "    name varchar(255) not null," ++ [10] ++ gs "    email varchar(255) unique not null," ++ [10] ++ gs "    age smallint not null," ++ [10] ++ gs "    registered_at timestamp with time zone default current_timestamp" ++ [10] ++ gs ");" ++ [10; 10] ++ gs "create table category (" ++ [10] ++ gs "    category_id serial primary key," ++ [10] ++ gs "    name varchar(255) not null" ++ [10] ++ gs ");" ++ [10; 10] ++ gs "create table item (" ++ [10] ++ gs "    item_id serial primary key," ++ [10] ++ gs "    price int not null," ++ [10] ++ gs "    name varchar(255) not null," ++ [10] ++ gs "    category_id int references category(category_id)," ++ [10] ++ gs "    created_at timestamp with time zone default current_timestamp" ++ [10] ++ gs ");" ++ [10]) with ROk l => List.length l = 3%nat | _ => False end.
Proof. vm_compute. reflexivity. Qed.

(** e2e/commentmap_test.go:35-191. *)
Example comment_map_0 : attached_to (stmt_key 0) ([10] ++ gs "--test" ++ [10] ++ gs "SELECT * from test;" ++ [10]) =
  Some [[(mkComment (gs "test") (mkPos 2 1) (mkPos 2 7))]].
Proof. vm_compute. reflexivity. Qed.

Example comment_map_1 : attached_to (stmt_key 0) ([10] ++ gs "--select" ++ [10] ++ gs "SELECT * from test;" ++ [10; 10] ++ gs "/*" ++ [10] ++ gs "insert" ++ [10] ++ gs "*/" ++ [10] ++ gs "INSERT INTO tbl_name (col1,col2) VALUES(15,col1*2);" ++ [10]) =
  Some [[(mkComment (gs "select") (mkPos 2 1) (mkPos 2 9))]].
Proof. vm_compute. reflexivity. Qed.

Example comment_map_2 : attached_to (stmt_key 1) ([10] ++ gs "--select" ++ [10] ++ gs "SELECT * from test;" ++ [10; 10] ++ gs "/*" ++ [10] ++ gs "insert" ++ [10] ++ gs "*/" ++ [10] ++ gs "INSERT INTO tbl_name (col1,col2) VALUES(15,col1*2);" ++ [10]) =
  Some [[(mkComment ([10] ++ gs "insert" ++ [10]) (mkPos 5 1) (mkPos 7 3))]].
Proof. vm_compute. reflexivity. Qed.

Example comment_map_3 : attached_to (stmt_key 0) ([10] ++ gs "/*associate with stmts1*/" ++ [10] ++ gs "CREATE TABLE test (" ++ [10; 9] ++ gs "/*associate with columndef*/" ++ [10] ++ gs "    col0 int primary key, --columndef" ++ [10; 9] ++ gs "/*with constraints*/" ++ [10] ++ gs "    col1 integer constraint test_constraint check (10 < col1 and col1 < 100)," ++ [10] ++ gs "    foreign key (col0, col1) references test2(col1, col2), --table constraints1" ++ [10; 9] ++ gs "--table constraints2" ++ [10] ++ gs "    CONSTRAINT test_constraint check(col1 > 10)" ++ [10] ++ gs "); --associate with stmts2" ++ [10]) =
  Some [[(mkComment (gs "associate with stmts1") (mkPos 2 1) (mkPos 2 26))]; [(mkComment (gs "associate with stmts2") (mkPos 11 4) (mkPos 11 27))]].
Proof. vm_compute. reflexivity. Qed.

Example comment_map_4 : attached_to (elem_key 0) ([10] ++ gs "/*associate with stmts1*/" ++ [10] ++ gs "CREATE TABLE test (" ++ [10; 9] ++ gs "/*associate with columndef*/" ++ [10] ++ gs "    col0 int primary key, --columndef" ++ [10; 9] ++ gs "/*with constraints*/" ++ [10] ++ gs "    col1 integer constraint test_constraint check (10 < col1 and col1 < 100)," ++ [10] ++ gs "    foreign key (col0, col1) references test2(col1, col2), --table constraints1" ++ [10; 9] ++ gs "--table constraints2" ++ [10] ++ gs "    CONSTRAINT test_constraint check(col1 > 10)" ++ [10] ++ gs "); --associate with stmts2" ++ [10]) =
  Some [[(mkComment (gs "associate with columndef") (mkPos 4 5) (mkPos 4 33))]; [(mkComment (gs "columndef") (mkPos 5 27) (mkPos 5 38))]].
Proof. vm_compute. reflexivity. Qed.

Example comment_map_5 : attached_to (elem_key 1) ([10] ++ gs "/*associate with stmts1*/" ++ [10] ++ gs "CREATE TABLE test (" ++ [10; 9] ++ gs "/*associate with columndef*/" ++ [10] ++ gs "    col0 int primary key, --columndef" ++ [10; 9] ++ gs "/*with constraints*/" ++ [10] ++ gs "    col1 integer constraint test_constraint check (10 < col1 and col1 < 100)," ++ [10] ++ gs "    foreign key (col0, col1) references test2(col1, col2), --table constraints1" ++ [10; 9] ++ gs "--table constraints2" ++ [10] ++ gs "    CONSTRAINT test_constraint check(col1 > 10)" ++ [10] ++ gs "); --associate with stmts2" ++ [10]) =
  Some [[(mkComment (gs "with constraints") (mkPos 6 5) (mkPos 6 25))]].
Proof. vm_compute. reflexivity. Qed.

Example comment_map_6 : attached_to (elem_key 2) ([10] ++ gs "/*associate with stmts1*/" ++ [10] ++ gs "CREATE TABLE test (" ++ [10; 9] ++ gs "/*associate with columndef*/" ++ [10] ++ gs "    col0 int primary key, --columndef" ++ [10; 9] ++ gs "/*with constraints*/" ++ [10] ++ gs "    col1 integer constraint test_constraint check (10 < col1 and col1 < 100)," ++ [10] ++ gs "    foreign key (col0, col1) references test2(col1, col2), --table constraints1" ++ [10; 9] ++ gs "--table constraints2" ++ [10] ++ gs "    CONSTRAINT test_constraint check(col1 > 10)" ++ [10] ++ gs "); --associate with stmts2" ++ [10]) =
  Some [[(mkComment (gs "table constraints1") (mkPos 8 60) (mkPos 8 80))]].
Proof. vm_compute. reflexivity. Qed.

Example comment_map_7 : attached_to (elem_key 3) ([10] ++ gs "/*associate with stmts1*/" ++ [10] ++ gs "CREATE TABLE test (" ++ [10; 9] ++ gs "/*associate with columndef*/" ++ [10] ++ gs "    col0 int primary key, --columndef" ++ [10; 9] ++ gs "/*with constraints*/" ++ [10] ++ gs "    col1 integer constraint test_constraint check (10 < col1 and col1 < 100)," ++ [10] ++ gs "    foreign key (col0, col1) references test2(col1, col2), --table constraints1" ++ [10; 9] ++ gs "--table constraints2" ++ [10] ++ gs "    CONSTRAINT test_constraint check(col1 > 10)" ++ [10] ++ gs "); --associate with stmts2" ++ [10]) =
  Some [[(mkComment (gs "table constraints2") (mkPos 9 5) (mkPos 9 25))]].
Proof. vm_compute. reflexivity. Qed.

(** e2e/astutil_test.go: Inspect and Apply come to their end on e2e/testdata. *)
Example astutil_alter_add_column : astutil (gs "ALTER TABLE test1 ADD COLUMN NAME VARCHAR NOT NULL;").
Proof. vm_compute. split; reflexivity. Qed.

Example astutil_alter_drop_column : astutil (gs "ALTER TABLE TEST1 DROP COLUMN name;").
Proof. vm_compute. split; reflexivity. Qed.

Example astutil_alter_drop_default : astutil (gs "ALTER TABLE test1 ALTER COLUMN NAME DROP DEFAULT;").
Proof. vm_compute. split; reflexivity. Qed.

Example astutil_alter_drop_not_null : astutil (gs "ALTER TABLE test1 ALTER COLUMN NAME DROP NOT NULL;").
Proof. vm_compute. split; reflexivity. Qed.

Example astutil_alter_edit_type : astutil (gs "ALTER TABLE test1 ALTER COLUMN NAME TYPE TEXT;").
Proof. vm_compute. split; reflexivity. Qed.

Example astutil_alter_set_default : astutil (gs "ALTER TABLE test1 ALTER COLUMN NAME SET DEFAULT 10;").
Proof. vm_compute. split; reflexivity. Qed.

Example astutil_alter_set_not_null : astutil (gs "ALTER TABLE test1 ALTER COLUMN NAME SET NOT NULL;").
Proof. vm_compute. split; reflexivity. Qed.

Example astutil_create_index_partial_index : astutil (gs "CREATE UNIQUE INDEX customers_idx ON customers USING gist (name) WHERE name = 'test';").
Proof. vm_compute. split; reflexivity. Qed.

Example astutil_create_index_unique_index : astutil (gs "CREATE UNIQUE INDEX customers_idx ON customers USING gist (name);").
Proof. vm_compute. split; reflexivity. Qed.

Example astutil_create_index_using_index : astutil (gs "CREATE UNIQUE INDEX customers_idx ON customers (name, email);").
Proof. vm_compute. split; reflexivity. Qed.

Example astutil_create_table_create : astutil (gs "CREATE TABLE test (" ++ [10] ++ gs "    col1 int primary key," ++ [10] ++ gs "    col2 char(10)," ++ [10] ++ gs "    col3 VARCHAR," ++ [10] ++ gs "    col4 VARCHAR(255)," ++ [10] ++ gs "    col5 uuid NOT NULl," ++ [10] ++ gs "    col6 smallint check(col6 < 10)," ++ [10] ++ gs "    col7 bigint UNIQUE," ++ [10] ++ gs "    col8 integer constraint test_constraint check (10 < col8 and col8 < 100)," ++ [10] ++ gs "    col9 serial," ++ [10] ++ gs "    col10 character varying," ++ [10] ++ gs "    col11 real references test2(col1)," ++ [10] ++ gs "    col12 double precision," ++ [10] ++ gs "    col13 date," ++ [10] ++ gs "    col14 time," ++ [10] ++ gs "    col15 timestamp default current_timestamp," ++ [10] ++ gs "    col16 boolean default false," ++ [10] ++ gs "    col17 numeric(10, 10)," ++ [10] ++ gs "    col18 text," ++ [10] ++ gs "    foreign key (col1, col2) references test2(col1, col2)," ++ [10] ++ gs "    unique key (col1, col2)," ++ [10] ++ gs "    CONSTRAINT test_constraint check(col1 > 10)" ++ [10] ++ gs ")").
Proof. vm_compute. split; reflexivity. Qed.

Example astutil_create_table_my_create : astutil (gs "-- from https://github.com/isucon/isucon8-qualify/blob/master/db/schema.sql" ++ [10; 10] ++ gs "CREATE TABLE IF NOT EXISTS users (" ++ [10] ++ gs "    id          INTEGER UNSIGNED PRIMARY KEY AUTO_INCREMENT," ++ [10] ++ gs "    nickname    VARCHAR(128) NOT NULL," ++ [10] ++ gs "    login_name  VARCHAR(128) NOT NULL," ++ [10] ++ gs "    pass_hash   VARCHAR(128) NOT NULL" ++ [10] ++ gs ") ENGINE=InnoDB DEFAULT CHARSET utf8mb4;" ++ [10]).
Proof. vm_compute. split; reflexivity. Qed.

Example astutil_create_table_pg_dump : astutil (gs "CREATE TABLE public.version (" ++ [10] ++ gs "    version_id uuid DEFAULT public.uuid_generate_v4() NOT NULL," ++ [10] ++ gs "    project_id uuid NOT NULL," ++ [10] ++ gs "    name character varying(256) NOT NULL," ++ [10] ++ gs "    created_at timestamp without time zone DEFAULT now() NOT NULL" ++ [10] ++ gs ");").
Proof. vm_compute. split; reflexivity. Qed.

Example astutil_drop_index_drop : astutil (gs "DROP INDEX title_idx,title_idx2,title_idx3;").
Proof. vm_compute. split; reflexivity. Qed.

Example astutil_drop_index_single : astutil (gs "DROP INDEX title_idx;").
Proof. vm_compute. split; reflexivity. Qed.

Example astutil_drop_table_drop_table : astutil (gs "DROP TABLE IF EXISTS TEST CASCADE;").
Proof. vm_compute. split; reflexivity. Qed.

Example astutil_insert_multi_values : astutil (gs "-- from https://dev.mysql.com/doc/refman/8.0/en/insert.html" ++ [10] ++ gs "INSERT INTO tbl_name (a,b,c) VALUES(1,2,3),(4,5,6),(7,8,9);").
Proof. vm_compute. split; reflexivity. Qed.

Example astutil_insert_on_duplicate_key : astutil (gs "-- from: https://dev.mysql.com/doc/refman/8.0/en/insert-on-duplicate.html" ++ [10] ++ gs "INSERT INTO t1 (a,b,c) VALUES (1,2,3) ON DUPLICATE KEY UPDATE c=c+1;" ++ [10]).
Proof. vm_compute. split; reflexivity. Qed.

Example astutil_insert_simple : astutil (gs "-- from https://dev.mysql.com/doc/refman/8.0/en/insert.html" ++ [10] ++ gs "INSERT INTO tbl_name (col1,col2) VALUES(15,col1*2);").
Proof. vm_compute. split; reflexivity. Qed.

Example astutil_insert_with_select : astutil (gs "INSERT INTO tbl_name (a,b,c) SELECT * from tbl_name2;").
Proof. vm_compute. split; reflexivity. Qed.

Example astutil_select_between_in : astutil (gs "SELECT * FROM Products" ++ [10] ++ gs "WHERE Price BETWEEN 10 AND 20" ++ [10] ++ gs "AND NOT CategoryID IN (1,2,3);").
Proof. vm_compute. split; reflexivity. Qed.

Example astutil_select_distinct : astutil (gs "SELECT Count(*) AS DistinctCountries" ++ [10] ++ gs "FROM (SELECT DISTINCT Country FROM Customers);" ++ [10]).
Proof. vm_compute. split; reflexivity. Qed.

Example astutil_select_exists : astutil (gs "SELECT column_name(s)" ++ [10] ++ gs "FROM table_name" ++ [10] ++ gs "WHERE EXISTS" ++ [10] ++ gs "(SELECT column_name FROM table_name WHERE condition);").
Proof. vm_compute. split; reflexivity. Qed.

Example astutil_select_group_by_join : astutil (gs "SELECT Shippers.ShipperName,COUNT(Orders.OrderID) AS NumberOfOrders FROM Orders" ++ [10] ++ gs "LEFT JOIN Shippers ON Orders.ShipperID = Shippers.ShipperID" ++ [10] ++ gs "GROUP BY ShipperName;" ++ [10]).
Proof. vm_compute. split; reflexivity. Qed.

Example astutil_select_having_orderby : astutil (gs "SELECT COUNT(CustomerID), Country" ++ [10] ++ gs "FROM Customers" ++ [10] ++ gs "GROUP BY Country" ++ [10] ++ gs "HAVING COUNT(CustomerID) > 5" ++ [10] ++ gs "ORDER BY COUNT(CustomerID) DESC;").
Proof. vm_compute. split; reflexivity. Qed.

Example astutil_select_inner_join : astutil (gs "SELECT Orders.OrderID, Customers.CustomerName" ++ [10] ++ gs "FROM Orders" ++ [10] ++ gs "INNER JOIN Customers ON Orders.CustomerID = Customers.CustomerID;" ++ [10]).
Proof. vm_compute. split; reflexivity. Qed.

Example astutil_select_lateral_join : astutil (gs "SELECT n.id, n.name, t.max, t.min FROM node n," ++ [10] ++ gs "    LATERAL (" ++ [10] ++ gs "        SELECT max(usage) as max, min(usage) as min" ++ [10] ++ gs "        FROM node_mon m" ++ [10] ++ gs "        WHERE m.id = n.id" ++ [10] ++ gs "    ) t;" ++ [10]).
Proof. vm_compute. split; reflexivity. Qed.

Example astutil_select_left_join : astutil (gs "SELECT Customers.CustomerName, Orders.OrderID" ++ [10] ++ gs "FROM Customers" ++ [10] ++ gs "LEFT JOIN Orders" ++ [10] ++ gs "ON Customers.CustomerID=Orders.CustomerID" ++ [10] ++ gs "ORDER BY Customers.CustomerName;" ++ [10]).
Proof. vm_compute. split; reflexivity. Qed.

Example astutil_select_like : astutil (gs "SELECT * FROM Customers" ++ [10] ++ gs "WHERE ContactName LIKE 'a%o';").
Proof. vm_compute. split; reflexivity. Qed.

Example astutil_select_limit_and_offset : astutil (gs "SELECT product, SUM(quantity) AS product_units FROM orders" ++ [10; 9] ++ gs "WHERE region IN (SELECT region FROM top_regions)" ++ [10; 9] ++ gs "ORDER BY product_units LIMIT 100 OFFSET 20;").
Proof. vm_compute. split; reflexivity. Qed.

Example astutil_select_moving_average : astutil (gs "-- from https://support.treasuredata.com/hc/ja/articles/216392117-Window-%E9%96%A2%E6%95%B0%E3%82%92%E4%BD%BF%E3%81%84%E3%81%93%E3%81%AA%E3%81%99-%E9%9B%86%E7%B4%84%E9%96%A2%E6%95%B0%E7%B3%BB-" ++ [10] ++ gs "SELECT m, d, goods_id, sales, AVG(sales) OVER (PARTITION BY goods_id,m ORDER BY d ASC ROWS BETWEEN 4 PRECEDING AND CURRENT ROW) as sales_moving_avg" ++ [10] ++ gs "FROM" ++ [10] ++ gs "(" ++ [10] ++ gs "  SELECT" ++ [10] ++ gs "    TD_TIME_FORMAT(time,'yyyy-MM-dd','JST') AS d, TD_TIME_FORMAT(time,'yyyy-MM','JST') AS m, goods_id, SUM(price*amount) AS sales" ++ [10] ++ gs "  FROM  sales_slip" ++ [10] ++ gs "  GROUP BY TD_TIME_FORMAT(time,'yyyy-MM-dd','JST'), TD_TIME_FORMAT(time,'yyyy-MM','JST'), goods_id" ++ [10] ++ gs ") t" ++ [10] ++ gs "ORDER BY goods_id, m, d").
Proof. vm_compute. split; reflexivity. Qed.

Example astutil_select_multi_join : astutil (gs "select count(*) from project" ++ [10] ++ gs "    join scenario ON scenario.project_id = project.project_id" ++ [10] ++ gs "    right outer join scenario_version ON scenario_version.scenario_id = scenario.scenario_id" ++ [10] ++ gs "    left outer join compare_log ON compare_log.left_scenario_version_id = scenario_version.scenario_version_id" ++ [10] ++ gs "    full outer join scenario_version scenario_version2 ON scenario_version2.scenario_version_id = compare_log.right_scenario_version_id" ++ [10] ++ gs "    inner join snapshot ON snapshot.scenario_version_id = scenario_version2.scenario_version_id" ++ [10] ++ gs "    natural join scenario_version as s3;").
Proof. vm_compute. split; reflexivity. Qed.

Example astutil_select_multi_table : astutil (gs "SELECT * FROM Customers, Items, Blogs" ++ [10] ++ gs "WHERE ContactName LIKE 'a%o';").
Proof. vm_compute. split; reflexivity. Qed.

Example astutil_select_notin : astutil (gs "SELECT * FROM Customers" ++ [10] ++ gs "WHERE Country NOT IN ('Germany', 'France', 'UK');").
Proof. vm_compute. split; reflexivity. Qed.

Example astutil_select_right_join : astutil (gs "SELECT Orders.OrderID, Employees.LastName, Employees.FirstName" ++ [10] ++ gs "FROM Orders" ++ [10] ++ gs "RIGHT JOIN Employees" ++ [10] ++ gs "ON Orders.EmployeeID = Employees.EmployeeID" ++ [10] ++ gs "ORDER BY Orders.OrderID;" ++ [10]).
Proof. vm_compute. split; reflexivity. Qed.

Example astutil_select_row_number : astutil (gs "-- from https://mode.com/sql-tutorial/sql-window-functions/" ++ [10] ++ gs "SELECT start_terminal," ++ [10] ++ gs "       start_time," ++ [10] ++ gs "       duration_seconds," ++ [10] ++ gs "       ROW_NUMBER() OVER (ORDER BY start_time)" ++ [10] ++ gs "                    AS row_number" ++ [10] ++ gs "  FROM tutorial.dc_bikeshare_q1_2012" ++ [10] ++ gs " WHERE start_time < '2012-01-08'").
Proof. vm_compute. split; reflexivity. Qed.

Example astutil_select_running_sum : astutil (gs "-- from https://support.treasuredata.com/hc/ja/articles/216392117-Window-%E9%96%A2%E6%95%B0%E3%82%92%E4%BD%BF%E3%81%84%E3%81%93%E3%81%AA%E3%81%99-%E9%9B%86%E7%B4%84%E9%96%A2%E6%95%B0%E7%B3%BB-" ++ [10] ++ gs "SELECT m, d, goods_id, sales, SUM(sales) OVER (PARTITION BY goods_id,m ORDER BY d ASC ROWS BETWEEN UNBOUNDED PRECEDING AND CURRENT ROW) as sales_running_sum" ++ [10] ++ gs "FROM" ++ [10] ++ gs "(" ++ [10] ++ gs "  SELECT" ++ [10] ++ gs "    TD_TIME_FORMAT(time,'yyyy-MM-dd','JST') AS d, TD_TIME_FORMAT(time,'yyyy-MM','JST') AS m, goods_id, SUM(price*amount) AS sales" ++ [10] ++ gs "  FROM  sales_slip" ++ [10] ++ gs "  GROUP BY TD_TIME_FORMAT(time,'yyyy-MM-dd','JST'), TD_TIME_FORMAT(time,'yyyy-MM','JST'), goods_id" ++ [10] ++ gs ") t" ++ [10] ++ gs "ORDER BY goods_id, m, d").
Proof. vm_compute. split; reflexivity. Qed.

Example astutil_select_sql_between : astutil (gs "SELECT a, SUM(b) OVER (PARTITION BY c ORDER BY d ROWS BETWEEN UNBOUNDED PRECEDING AND CURRENT ROW)" ++ [10] ++ gs "FROM T;").
Proof. vm_compute. split; reflexivity. Qed.

Example astutil_select_union_all_where : astutil (gs "SELECT City, Country FROM Customers" ++ [10] ++ gs "WHERE Country='Germany'" ++ [10] ++ gs "UNION ALL" ++ [10] ++ gs "SELECT City, Country FROM Suppliers" ++ [10] ++ gs "WHERE Country='Germany'" ++ [10] ++ gs "ORDER BY City;").
Proof. vm_compute. split; reflexivity. Qed.

Example astutil_select_where_and_or : astutil (gs "SELECT * FROM Customers" ++ [10] ++ gs "WHERE Country='Germany' AND (City='Berlin' OR City='M" ++ [252] ++ gs "nchen');" ++ [10]).
Proof. vm_compute. split; reflexivity. Qed.

Example astutil_select_window : astutil (gs "-- from https://mode.com/sql-tutorial/sql-window-functions/" ++ [10] ++ gs "SELECT start_terminal," ++ [10] ++ gs "       duration_seconds," ++ [10] ++ gs "       SUM(duration_seconds) OVER" ++ [10] ++ gs "         (PARTITION BY start_terminal ORDER BY start_time)" ++ [10] ++ gs "         AS running_total" ++ [10] ++ gs "  FROM tutorial.dc_bikeshare_q1_2012" ++ [10] ++ gs " WHERE start_time < '2012-01-08'").
Proof. vm_compute. split; reflexivity. Qed.

(** sqlastutil/rewrite_test.go:12-98.  The node made by the callback is at [1];
    the tests print the tree, here the edited field is looked at. *)
Definition parsed (src : string) : any :=
  match parse_stmt_source generic (gs src) with ROk s => of_stmt s | _ => AIdent (mkIdent [] pos0 pos0) end.
Definition item_c : any := AItem (SIUnnamed (EIdent (mkIdent (gs "c") pos0 pos0))).
Definition on_item (i : Z) (es : list edit) (u : unit) (h : heap) (c : cursor) : unit * list edit * bool :=
  (u, match cu_node c, cu_index c with
      | Some a, Some j => if String.eqb (c_type (h a)) "UnnamedSelectItem" && (i =? j) then es else []
      | _, _ => []
      end, true).
Definition on_long (u : unit) (h : heap) (c : cursor) : unit * list edit * bool :=
  (u, match cu_node c with Some a => if String.eqb (c_type (h a)) "LongValue" then [Replace [1%nat]] else [] | None => [] end, true).
Definition items (w : list any) (f : callback unit) : option (list (option any)) :=
  match Apply (Some f) None 40 [] [0%nat] (memory w) tt with
  | (st, ADone) =>
      match get_field (st_heap st) [0; 0]%nat "Projection" with
      | Some (FMany l) => Some (map (node_of w) l)
      | _ => None
      end
  | _ => None
  end.
Definition shown (l : option (list (option any))) : option (list gostring) :=
  option_map (map (fun x => match x with Some (AItem i) => builder_string (wt_selitem i) | _ => [] end)) l.

Example rewrite_replace :
  let w := [parsed "SELECT * FROM table_a WHERE id = 1"; ALong (mkLong pos0 pos0 2)] in
  match Apply (Some on_long) None 40 [] [0%nat] (memory w) tt with
  | (st, ADone) => get_field (st_heap st) [2; 0; 0]%nat "Right" = Some (FOne (Some [1%nat]))
  | _ => False
  end.
Proof. vm_compute. reflexivity. Qed.

Example rewrite_remove :
  shown (items [parsed "SELECT a, b, c FROM table_a"] (on_item 2 [Delete])) = Some [gs "a"; gs "b"].
Proof. vm_compute. reflexivity. Qed.

Example rewrite_insert_after :
  shown (items [parsed "SELECT a, b FROM table_a"; item_c] (on_item 1 [InsertAfter [1%nat]])) = Some [gs "a"; gs "b"; gs "c"].
Proof. vm_compute. reflexivity. Qed.

Example rewrite_insert_before :
  shown (items [parsed "SELECT a, b FROM table_a"; item_c] (on_item 0 [InsertBefore [1%nat]])) = Some [gs "c"; gs "a"; gs "b"].
Proof. vm_compute. reflexivity. Qed.

(** tools/genmark/main_test.go:7-24. *)
Example genmark_snake :
  map to_snake [gs "Foo"; gs "FooBar"; gs "FooB"; gs "SQLBar"; gs "BarSQL"] =
  [gs "foo"; gs "foo_bar"; gs "foo_b"; gs "sql_bar"; gs "bar_sql"].
Proof. vm_compute. reflexivity. Qed.
