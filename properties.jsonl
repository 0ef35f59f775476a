{"id": "C01", "title": "Tokenizer always answers", "statement": "For every source text and each shipped dialect, Tokenize/NewParser either returns a token list or returns an error; it never runs forever. (The code violates this for an unterminated delimited identifier; the exact set of inputs on which it does answer is characterised.)", "quantifier": "all source texts (finite rune sequences), all three shipped dialects, comment retention on or off", "why_tests_cant": "termination on every input is a universal statement over an infinite input set; a test that hangs cannot even report", "anchors": ["sqltoken/tokenizer.go:Tokenize", "sqltoken/tokenizer.go:next", "sqltoken/tokenizer.go:Scan"]}
{"id": "C02", "title": "Tokenizer loses no source text", "statement": "When tokenizing succeeds with comments kept, the source text is exactly the concatenation, in order, of non-empty slices, one per token, and every token is the correct reading (kind and value) of its own slice under the SQL lexical rules (except the text of block comments, see C07).", "quantifier": "all source texts accepted by the tokenizer", "why_tests_cant": "a dropped or duplicated character can hide in any context; only a statement over all inputs excludes it", "anchors": ["sqltoken/tokenizer.go:next", "sqltoken/tokenizer.go:tokenizeWord", "sqltoken/tokenizer.go:tokenizeSingleQuotedString", "sqltoken/tokenizer.go:tokenizeMultilineComment"]}
{"id": "C03", "title": "Token positions tile the text", "statement": "With comments kept, the first token starts at line 1 column 1, each token starts exactly where the previous one ends, and positions strictly increase from token to token.", "quantifier": "all accepted source texts", "why_tests_cant": "depends on the whole history of line/column updates", "anchors": ["sqltoken/tokenizer.go:Scan", "sqltoken/tokenizer.go:Pos", "sqltoken/tokenizer.go:ComparePos"]}
{"id": "C04", "title": "Token positions are the true line and column", "statement": "For texts without tabs, without line breaks inside quoted text, without doubled quotes and without non-ASCII characters in string literals, every token's From is the true (line, column) of its slice. Without those restrictions the statement is false.", "quantifier": "all accepted source texts in the stated class", "why_tests_cant": "column bookkeeping is done separately in two dozen branches; agreement must hold after every prefix", "anchors": ["sqltoken/tokenizer.go:next", "sqltoken/tokenizer.go:tokenizeMultilineComment"]}
{"id": "C05", "title": "String literal decoding is exact", "statement": "Tokenizing a quote, any text with each ' doubled, and a closing quote (not followed by another quote) yields a single string token whose value is exactly the text; an unclosed literal is reported as an error. The same holds for N'...' literals.", "quantifier": "all literal contents and all continuations", "why_tests_cant": "escaping correctness is about arbitrary contents, including runs of quotes", "anchors": ["sqltoken/tokenizer.go:tokenizeSingleQuotedString"]}
{"id": "C06", "title": "Words: longest match and case folding", "statement": "A run of identifier characters starting at an identifier-start character is read as one word up to the first non-identifier character, its Value is the text as written, and its Keyword is the upper-cased text whatever the keyword table contains; so changing letter case never changes Keyword.", "quantifier": "all words, all dialects, all following texts", "why_tests_cant": "the keyword table has 340 entries and a special-cased cache", "anchors": ["sqltoken/tokenizer.go:MakeKeyword", "sqltoken/tokenizer.go:tokenizeWord", "dialect/keywords.go:Keywords"]}
{"id": "C07", "title": "Comment text is kept", "statement": "The text of a -- comment is the rest of its line verbatim. The text of a /* */ comment should be the enclosed text verbatim: false as coded whenever a * is followed by something other than * or /; true when the text contains no * and no carriage return.", "quantifier": "all comment texts", "why_tests_cant": "needs all texts; the corruption only shows for particular character pairs", "anchors": ["sqltoken/tokenizer.go:tokenizeMultilineComment", "sqltoken/tokenizer.go:next"]}
{"id": "C08", "title": "Lexical errors are exactly the documented ones", "statement": "Tokenize returns an error only if some token start is met where the remaining text begins with ! not followed by =, with an unterminated string literal, or with an unterminated block comment; every other character is accepted.", "quantifier": "all source texts", "why_tests_cant": "a negative claim over all inputs", "anchors": ["sqltoken/tokenizer.go:next", "sqltoken/tokenizer.go:tokenizeSingleQuotedString", "sqltoken/tokenizer.go:tokenizeMultilineComment"]}
{"id": "C09", "title": "Disabling comments only filters", "statement": "Tokenize with DisableParseComment returns exactly the tokens of the full run minus whitespace and comments, with the same kinds, values and positions, and succeeds on exactly the same inputs.", "quantifier": "all source texts, all dialects", "why_tests_cant": "relates two complete runs of the tokenizer", "anchors": ["sqltoken/tokenizer.go:Tokenize", "sqltoken/tokenizer.go:DisableParseComment"]}
{"id": "C10", "title": "Dialects differ only where documented", "statement": "MySQL and Generic tokenize every text without a backquote identically; PostgreSQL and Generic agree on every text without @, _, $ and backquote.", "quantifier": "all texts in the stated class", "why_tests_cant": "relates two complete runs over all inputs", "anchors": ["dialect/dialect.go", "dialect/mysql.go", "dialect/postgres.go"]}
{"id": "C11", "title": "Position comparison is a total order", "statement": "ComparePos is reflexive-zero, antisymmetric, transitive and total, and agrees with reading order.", "quantifier": "all positions", "why_tests_cant": "algebraic law over all triples", "anchors": ["sqltoken/tokenizer.go:ComparePos"]}
{"id": "C12", "title": "Parsing always terminates", "statement": "For every token list, ParseStatement, ParseSQL, ParseFile, ParseExpr and ParseDataType come back (with a result, an error or a panic): recursion depth and every loop count are at most the number of tokens left plus two, so there is no livelock between look-ahead and push-back. On source text the only way not to come back is the tokenizer's (C01).", "quantifier": "all token lists, with and without comment collection", "why_tests_cant": "termination over all inputs of some sixty mutually recursive functions with push-back", "anchors": ["parser.go:ParseStatement", "parser.go:ParseSQL", "parser.go:parseSubexpr", "parser.go:prevToken"]}
{"id": "C13", "title": "Whitespace and comments are insignificant", "statement": "Two token lists that are equal after deleting whitespace and comment tokens give the same parse: same AST, same error, or same panic.", "quantifier": "all pairs of token lists", "why_tests_cant": "relational over all inputs and all places where whitespace can go", "anchors": ["parser.go:nextToken", "parser.go:prevToken", "parser.go:peekToken"]}
{"id": "C14", "title": "Comment collection does not change the parse", "statement": "Parsing with the ParseComment option yields the same statements (or error or panic) as parsing without it.", "quantifier": "all token lists", "why_tests_cant": "relates two different token readers over every backtracking path", "anchors": ["parser.go:nextTokenWithParseComment", "parser.go:ParseSQL", "parser.go:ParseComment"]}
{"id": "C15", "title": "Positions do not influence the parse", "statement": "Two token lists with the same kinds and values but different positions give ASTs that are equal except for recorded positions.", "quantifier": "all token lists and all position assignments", "why_tests_cant": "non-interference", "anchors": ["parser.go"]}
{"id": "C16", "title": "Keyword case is insignificant", "statement": "Changing the letter case of unquoted words in the source changes nothing in the parse except the recorded spelling of identifiers.", "quantifier": "all token lists", "why_tests_cant": "relates pairs of runs", "anchors": ["parser.go:parseKeyword", "sqltoken/tokenizer.go:MakeKeyword"]}
{"id": "C17", "title": "Print then parse gives the AST back", "statement": "For every well-formed AST (independently specified class), tokenizing and parsing ToSQLString() gives the same AST up to positions, with all text consumed.", "quantifier": "all well-formed ASTs of any depth", "why_tests_cant": "infinitely many trees; every operator and clause combination matters", "anchors": ["parser.go", "sqlast/ast.go", "sqlast/query.go", "sqlast/stmt.go:WriteTo"]}
{"id": "C18", "title": "Parse, print, parse is stable", "statement": "If a text parses to an AST outside the listed defect classes, printing it and parsing again gives the same AST up to positions (hence the printed form is a fixed point).", "quantifier": "all accepted texts outside the defect classes", "why_tests_cant": "universal over accepted texts", "anchors": ["parser.go", "sqlast/*.go:ToSQLString"]}
{"id": "C19", "title": "Operator precedence and associativity", "statement": "Every expression tree built by the parser respects the precedence table (OR < AND < NOT < IS < comparison/IN/BETWEEN/LIKE < + - < * / % < ::) and left associativity (the negated forms NOT IN, NOT BETWEEN and NOT LIKE bind at the level of NOT, as coded), and its left-to-right reading is exactly the consumed token sequence.", "quantifier": "all token lists", "why_tests_cant": "trees of any size and operator mix", "anchors": ["parser.go:parseSubexpr", "parser.go:parseInfix", "parser.go:getPrecedence"]}
{"id": "C20", "title": "Set operator precedence", "statement": "INTERSECT binds tighter than UNION and EXCEPT, which associate to the left, in every query the parser returns.", "quantifier": "all token lists", "why_tests_cant": "chains of any length", "anchors": ["parser.go:parseQueryBody"]}
{"id": "C21", "title": "Statement lists split at semicolons", "statement": "ParseSQL on statements joined and terminated by semicolons returns exactly the list of the individual statements, in order; a missing final semicolon is an error; on success every token of the input has been consumed.", "quantifier": "all lists of statements", "why_tests_cant": "list length is unbounded", "anchors": ["parser.go:ParseSQL", "parser.go:ParseFile"]}
{"id": "C22", "title": "No silent loss of SQL", "statement": "When a statement is accepted every significant token is represented in the AST. False as coded (CROSS JOIN chains, MATERIALIZED, repeated column constraints, LIMIT directly after FROM, table functions, table options after a comma): each loss is exhibited.", "quantifier": "all accepted inputs", "why_tests_cant": "needs to account for every token on every path", "anchors": ["parser.go:parseTableReferenceRight", "parser.go:parseCreate", "parser.go:parseColumnDefinition", "parser.go:parseTableOptions", "parser.go:parseTableFactor", "dialect/keywords.go:ReservedForTableAlias"]}
{"id": "C23", "title": "The parser reports bad input as errors, not panics", "statement": "ParseStatement returns an error rather than panicking for every text. False as coded: all three kinds of panic happen. What can happen is characterised: a failed type assertion needs a statement starting with CREATE, ALTER or EXPLAIN; a nil dereference needs input that ends without a semicolon after the point reached; expressions and data types never fail a type assertion.", "quantifier": "all source texts", "why_tests_cant": "absence of a panic is a statement about all inputs", "anchors": ["parser.go:expectKeyword", "parser.go:expectToken", "parser.go:parseSelectList", "parser.go:mustNextToken"]}
{"id": "C24", "title": "Quoted identifiers are never keywords", "statement": "A delimited identifier is treated as an identifier whatever its spelling. False as coded; exhibited. True for an expression that is a delimited identifier not spelling TRUE, FALSE, NULL, CASE, CAST, EXISTS or NOT.", "quantifier": "all delimited identifiers in all contexts", "why_tests_cant": "the check is missing in a shared helper, visible only for particular spellings and places", "anchors": ["parser.go:parseKeyword", "sqltoken/tokenizer.go:MakeKeyword"]}
{"id": "C25", "title": "Integer literals keep their value", "statement": "An integer literal below 2^63 is parsed to exactly its value and printing the value gives a text that parses to the same value; from 2^63 on the value silently becomes 2^63-1.", "quantifier": "all digit strings", "why_tests_cant": "infinitely many literals", "anchors": ["parser.go:parseValue", "sqlast/value.go:LongValue"]}
{"id": "C26", "title": "Decimal literals keep their value", "statement": "A literal digits.digits denotes the binary64 number nearest to the written decimal, and is an error when that overflows; printing and re-reading gives back the same number. The second half is false as coded for integral values (they print without a dot; 2^60 even changes its value); it is true for all other values, and integral values below 2^53 keep their value.", "quantifier": "all decimal literals", "why_tests_cant": "infinitely many literals", "anchors": ["parser.go:parseValue", "sqlast/value.go:DoubleValue"]}
{"id": "C27", "title": "Printed string literals are safe", "statement": "A string value printed as SQL reads back as the same single string token. False as coded for values containing a quote (the printed text is not escaped); true for every value without a quote.", "quantifier": "all string values", "why_tests_cant": "arbitrary contents; an injection defect is a single bad character", "anchors": ["sqlast/value.go:SingleQuotedString", "sqlast/value.go:NationalStringLiteral"]}
{"id": "C28", "title": "ParseFile keeps every comment exactly once", "statement": "With ParseComment, the comments of the returned file, read group by group, are exactly the comment tokens of the source, in source order, each exactly once, in spite of look-ahead and backtracking.", "quantifier": "all accepted token lists with strictly increasing positions", "why_tests_cant": "depends on every backtracking history", "anchors": ["parser.go:nextTokenWithParseComment", "parser.go:ParseFile"]}
{"id": "C29", "title": "CommentMap associates every comment group once", "statement": "Whenever NewCommentMap returns, every comment group of the file is associated with exactly one node of the file, and groups attached to one node stay in source order.", "quantifier": "all files", "why_tests_cant": "loop over two cursors with early exit", "anchors": ["sqlast/commentmap.go:NewCommentMap"]}
{"id": "C30", "title": "NewCommentMap and Pos/End are total on parsed files", "statement": "Pos, End and NewCommentMap do not panic on ASTs returned by the parser. False as coded; exhibited for a column without constraints, and the sound class is characterised.", "quantifier": "all parsed files", "why_tests_cant": "a panic needs a particular shape of tree", "anchors": ["sqlast/stmt.go:ColumnDef.End", "sqlast/stmt.go:CreateTableStmt.End", "sqlast/ast.go:WindowSpec.Pos"]}
{"id": "C31", "title": "Walk visits in source-tree order, once, well bracketed", "statement": "Walk calls Visit on a node before its children, visits children in the order of the fields, calls Visit(nil) exactly once after the children of each entered node, and skips exactly the subtrees whose Visit returned nil.", "quantifier": "all ASTs, all visitors (stateful)", "why_tests_cant": "all trees and all visitor behaviours", "anchors": ["sqlast/walk.go:Walk", "sqlast/walk.go:Inspect"]}
{"id": "C32", "title": "Walk reaches every sub-node", "statement": "Every node reachable through AST fields is visited. False as coded for CASE branches, USING columns, table options and a few type nodes; true for all other fields.", "quantifier": "all ASTs", "why_tests_cant": "completeness over all node types and nestings", "anchors": ["sqlast/walk.go:Walk"]}
{"id": "C33", "title": "Walk never panics on parsed trees", "statement": "Inspect with a callback that rejects nil never panics on an AST from the parser; with a callback that accepts nil it panics exactly on trees containing CASE without operand or UPDATE without WHERE.", "quantifier": "all parsed ASTs", "why_tests_cant": "absence of panic", "anchors": ["sqlast/walk.go:Walk"]}
{"id": "C34", "title": "Apply traverses like Walk", "statement": "sqlastutil.Apply with a never-editing callback leaves the tree unchanged and visits the same nodes in the same order as Walk; it panics on USING joins.", "quantifier": "all ASTs", "why_tests_cant": "all trees", "anchors": ["sqlastutil/rewrite.go:Apply"]}
{"id": "C35", "title": "Cursor list edits are exact", "statement": "With Delete, InsertBefore and InsertAfter called during Apply over a list field, the resulting list is the original list with each edit applied at its element; every original element is visited exactly once and no inserted element is visited, for callbacks that delete at most once per element and after that at most InsertBefore on it.", "quantifier": "all lists and all edit scripts", "why_tests_cant": "iterator arithmetic under arbitrary edit histories", "anchors": ["sqlastutil/rewrite.go:applyList", "sqlastutil/rewrite.go:Cursor.Delete", "sqlastutil/rewrite.go:Cursor.InsertAfter", "sqlastutil/rewrite.go:Cursor.InsertBefore"]}
{"id": "C36", "title": "WriteTo counts bytes and stops at the first error", "statement": "For every AST and every io.Writer that obeys its contract, WriteTo returns the number of bytes the writer accepted and its first error, issues no Write after an error, and what was accepted is a prefix of ToSQLString(); with no error it is all of ToSQLString().", "quantifier": "all ASTs, all writers failing at any point", "why_tests_cant": "fault can occur at any byte", "anchors": ["sqlast/writer.go:sqlWriter", "sqlast/*.go:WriteTo"]}
{"id": "C37", "title": "Parsing is a function of the tokens left", "statement": "ParseStatement depends only on the unread tokens and not on what was read before, and consumes at least one token on success, so repeated calls make progress.", "quantifier": "all parser states", "why_tests_cant": "all histories", "anchors": ["parser.go:ParseStatement"]}
{"id": "C38", "title": "Expression nodes know their source span", "statement": "For expressions made of identifiers, literals, unary and binary operators, parentheses, CASE, EXISTS, IN and BETWEEN, Pos() is the start of the first consumed token and End() the end of the last. False as coded for subqueries (Pos and End swapped), IS NULL (End counts on single blanks), OVER and :: (positions unset), and qualified wildcards.", "quantifier": "all token lists", "why_tests_cant": "every nesting combination", "anchors": ["sqlast/ast.go:Pos", "sqlast/ast.go:End", "parser.go:parsePrefix"]}
{"id": "C39", "title": "The cursor tells the truth and Apply returns the last replacement", "statement": "At every pre call of sqlastutil.Apply the node of the cursor is found in the field Name() of Parent(), at Index() for lists, in the memory as edited so far; Apply returns the root, or the node that last replaced it. The exception are the cursors named QueryStmt on queries below EXISTS, sub-queries, CTEs, derived bodies and views, whose name is that of no field, so that Replace panics there.", "quantifier": "all trees, all callbacks and edit histories", "why_tests_cant": "the index must stay right under every interleaving of edits on this and other lists", "anchors": ["sqlastutil/rewrite.go:Apply", "sqlastutil/rewrite.go:Cursor.Replace", "sqlastutil/rewrite.go:applyList"]}
{"id": "C40", "title": "Positions are never printed", "statement": "The SQL text of a tree does not depend on the positions stored in it (nor a file's text on its comments): two trees that differ only in positions print alike, so hand-built and parsed trees print alike.", "quantifier": "all trees, all changes to positions", "why_tests_cant": "universal over trees and over position changes; a printer consulting a position (e.g. to decide on a line break or an optional keyword) can agree with every parsed sample", "anchors": ["sqlast/*.go:WriteTo", "sqlast/*.go:ToSQLString"]}
{"id": "C41", "title": "Any layout of a statement is accepted and read as that statement", "statement": "For every readable tree, every text whose tokens other than blanks and comments are the tokens of the tree, up to the letter case of words, is accepted by ParseExpr, ParseDataType, ParseStatement, ParseSQL and ParseFile and read as that tree, up to positions and letter case of names: completeness of the parser on the grammar it prints.", "quantifier": "all readable trees, all layouts, comments and letter cases of their text", "why_tests_cant": "infinitely many trees and infinitely many layouts of each; a parser that drops one combination of clauses passes samples", "anchors": ["parser.go:ParseSQL", "parser.go:ParseStatement", "parser.go:ParseExpr", "parser.go:ParseDataType", "sqltoken/tokenizer.go:Tokenize"]}
{"id": "C42", "title": "Different trees print differently", "statement": "Two readable trees with the same ToSQLString are equal up to positions, so the SQL text can serve as a key for a query. False for hand-built trees in general (no parentheses or quotes are added).", "quantifier": "all pairs of trees", "why_tests_cant": "universal over pairs of trees; a printer that forgets a field or a separator collides only on particular pairs", "anchors": ["sqlast/*.go:WriteTo", "sqlast/*.go:ToSQLString"]}
{"id": "C43", "title": "A comment is attached to a node close to it", "statement": "For files whose comment groups are in order, as they are in all parsed files, NewCommentMap attaches each group to a statement, column or table constraint that ended before it on its line or the line above, to the node listed just before the next node, or to the next node. A group that begins close after the end of a statement, column or constraint belongs to the outermost such that has just ended; a group on lines of its own belongs to the node after it.", "quantifier": "all files with ordered comments, all groups", "why_tests_cant": "the association depends on the whole history of a stack and on the line arithmetic of every pair of comment and node", "anchors": ["sqlast/commentmap.go:NewCommentMap", "sqlast/commentmap.go:nodeStack.pop", "sqlast/commentmap.go:nodeStack.push"]}
{"id": "C44", "title": "Nodes of every kind know their place", "statement": "In every parsed file, each node (statement, query, table, type, constraint, ...) is read from its own run of tokens inside the run of the node that contains it; its Pos is the start of the first token and its End the end of the last one, except for the kinds of nodes listed as not knowing it (WITH queries, CREATE INDEX, EXPLAIN, derived tables, USING, LIMIT with OFFSET, ORDER BY with a direction, CREATE TABLE ends, unnamed types, ...), for which it is false. Parts do not start before their node and a statement ends before the next one starts.", "quantifier": "all sources, dialects, parsed nodes", "why_tests_cant": "universal over texts and nodes; positions are copied through dozens of parser functions and a wrong one shows only for particular constructs", "anchors": ["sqlast/*.go:Pos", "sqlast/*.go:End", "parser.go:ParseFile", "parser.go:ParseStatement"]}
{"id": "C45", "title": "Parsing takes linearly many steps", "statement": "Every public method of the parser, with or without ParseComment, called in any state and whether it succeeds or fails, calls nextToken, peekToken and prevToken at most 100 times for each remaining token that is not a blank or comment, plus 60; so at most 100 times the length of the text plus 60. Without ParseComment the tokens these calls look at are at most the calls times (longest run of blanks and comments + 1).", "quantifier": "all token lists and reader states, all texts, dialects, methods and recursion depths", "why_tests_cant": "a backtracking parser can be exponential on nestings no test tries; the bound must hold for all nestings and for all failing inputs", "anchors": ["parser.go:ParseSQL", "parser.go:ParseStatement", "parser.go:ParseExpr", "parser.go:ParseDataType", "parser.go:nextToken", "parser.go:peekToken", "parser.go:prevToken", "parser.go:parseKeywords"]}
{"id": "C46", "title": "Scripts can be joined and cut", "statement": "A text that ParseSQL accepts, a new line, and a second text (no byte order mark, its first token not a semicolon) give the statements of the first text followed by exactly what the second text alone gives, up to positions; if the second alone fails, so does the whole, in the same way. Any number of accepted texts can be joined. Conversely an accepted text is blanks, then for each statement its own text, blanks and a semicolon: that text with a semicolon is accepted alone and gives the same statement up to positions, and it starts at the statement's Pos and ends at its End when the statement knows them.", "quantifier": "all texts, all dialects that use ordinary word characters, any number of statements and texts", "why_tests_cant": "no finite set of pairs of texts shows that no statement reads into the next one or depends on what stands before it", "anchors": ["parser.go:ParseSQL", "parser.go:ParseFile", "parser.go:ParseStatement", "sqltoken/tokenizer.go:Tokenize", "sqlast/ast.go:Node.Pos"]}
{"id": "C47", "title": "Bytes in, bytes out", "statement": "If the bytes the reader delivers are UTF-8, the parser works on exactly the characters they encode, and what ToSQLString and WriteTo give is UTF-8: printed readable statements are read back from their bytes. Whatever the bytes, only Unicode scalar values reach the tokenizer. Bytes survive exactly if they are UTF-8; if they are not, U+FFFD stands in the text. The column width of an unquoted word is the number of its bytes.", "quantifier": "all byte sequences, all texts, dialects and statements", "why_tests_cant": "there are infinitely many byte sequences; overlong forms, surrogates and truncated characters each need all their neighbours", "anchors": ["sqltoken/tokenizer.go:NewTokenizer", "sqltoken/tokenizer.go:next", "sqltoken/tokenizer.go:tokenizeWord", "sqlast/writer.go:toSQLString"]}
{"id": "C48", "title": "Literal values", "statement": "Parsing a string literal (quotes doubled, plain or national), TRUE, FALSE or NULL in any case, or a decimal fraction gives a node whose Value() is that string, boolean, nil, or the nearest float64; for integers it should be the integer (false: Value() returns the node). DateValue, TimeValue, DateTimeValue and TimestampValue print in ISO form with padded fields; the text should read back as the same value (false: it is read as year - month - day, a time as its hour).", "quantifier": "all strings, all digit strings, all dialects that use ordinary word characters, all valid dates and times", "why_tests_cant": "the values range over all strings and numbers; escaping must be undone exactly for each", "anchors": ["sqlast/value.go:Value", "sqlast/value.go:DateValue", "sqlast/value.go:TimeValue", "sqlast/value.go:DateTimeValue", "sqlast/value.go:TimestampValue", "parser.go:ParseExpr"]}
{"id": "C49", "title": "Where a statement starts", "statement": "If ParseStatement accepts a text, its first token other than blanks and comments is one of the words SELECT, WITH, CREATE, DELETE, INSERT, ALTER, UPDATE, DROP, EXPLAIN in any case (quoted or not); a script that ParseSQL accepts and that is not empty starts so after at most one semicolon. A text that starts with any other word is never accepted, in particular the text of a CopyStmt, whatever its table, columns and values.", "quantifier": "all texts, dialects and COPY statements", "why_tests_cant": "all texts and all first words", "anchors": ["parser.go:ParseStatement", "parser.go:ParseSQL", "sqlast/stmt.go:CopyStmt"]}
{"id": "C50", "title": "Reading token by token", "statement": "Calling NextToken any number of times, going on after errors, gives the tokens of one cutting of the text into lexemes and bad slices (an exclamation mark, or an unclosed string or comment to the end): each lexeme its token (nil if blanks and comments are not wanted), each bad slice an error with an ILLEGAL token, then io.EOF for ever. Every call uses up at least one character; only a delimited identifier that is never closed gets no answer. Tokenize called in the middle gives the remaining tokens.", "quantifier": "all texts, dialects that use ordinary word characters, and numbers of calls", "why_tests_cant": "the state after an error matters for every later call; all texts and all call sequences are meant", "anchors": ["sqltoken/tokenizer.go:NextToken", "sqltoken/tokenizer.go:Scan", "sqltoken/tokenizer.go:Tokenize"]}
{"id": "C51", "title": "What a dialect decides", "statement": "A dialect matters only through its three character tests. Two dialects that treat every character of a text alike give the same tokens and the same results from every entry point, errors included; in a text that can be tokenized it is enough that they agree on the first character of each token and on the other characters of unquoted words. So the generic, PostgreSQL and MySQL dialects agree on every text in which no token starts with @, $, _ or a backquote and no unquoted word has @ or $ in it, and each of these four characters does make a difference.", "quantifier": "all texts and all pairs of dialects that use ordinary word characters", "why_tests_cant": "all texts and user-defined dialects are meant", "anchors": ["dialect/dialect.go:GenericSQLDialect", "dialect/postgres.go:PostgresqlDialect", "dialect/mysql.go:MySQLDialect", "parser.go:NewParser"]}
{"id": "C52", "title": "Trees are not larger than their texts", "statement": "A parsed file has at most four nodes per token (so at most four per character) and one for the file; so it is nested no deeper than that, and Walk makes at most three calls per node whatever the visitor. A statement or expression parsed anywhere in a text has at most four nodes for each token it used.", "quantifier": "all texts that can be parsed, all dialects that use ordinary word characters, all visitors", "why_tests_cant": "a bound for all inputs, however large or deeply nested; tests see a few sizes", "anchors": ["parser.go:ParseFile", "parser.go:ParseStatement", "parser.go:ParseExpr", "sqlast/walk.go:Walk"]}
{"id": "C53", "title": "Names do not matter", "statement": "The parser knows 111 words; any other word is just a name. Renaming the names of a text, in any way that keeps these words (quoted ones too) and makes no name one of them, renames the identifiers of the parsed tree and changes nothing else: the same errors, the same panics, as much of the text read, under every pair of dialects and from every parsing method. Renaming the identifiers of a tree that can be written down gives a tree that can be written down, and its printed text is read back as the renamed tree. Each of the 111 words does matter. Quoting does not protect a name: \"select\" in quotes is still one of the words.", "quantifier": "all texts, token lists, trees, renamings, parser methods and pairs of dialects that use ordinary word characters", "why_tests_cant": "all texts and all renamings are meant; a test uses a few names", "anchors": ["parser.go:ParseSQL", "parser.go:ParseStatement", "parser.go:ParseExpr", "parser.go:ParseDataType", "sqlast/ast.go:Ident"]}
{"id": "C54", "title": "How far a call looks ahead", "statement": "A successful call of ParseExpr, ParseDataType or ParseStatement depends on nothing but the tokens it reads and a fixed number of tokens after them (the end of the input counts as one): 1 for expressions and data types; for statements 4 if it read an INSERT, 2 for a query or CREATE VIEW, else 1, EXPLAIN as the statement explained. On any other token list with these tokens at its start, blanks and positions apart, the call gives the same tree up to positions and reads as far. For none of the methods and none of the eleven sorts of statements one token less is enough.", "quantifier": "all token lists and parser states; all continuations of the tokens read", "why_tests_cant": "every possible continuation of the input is meant", "anchors": ["parser.go:ParseStatement", "parser.go:ParseExpr", "parser.go:ParseDataType", "parser.go:parseKeywords"]}
{"id": "C55", "title": "Templates can be filled in", "statement": "Take a text that ParseExpr, ParseStatement or ParseSQL accepts and that has a string literal 'v' in parentheses, with 'v' nowhere else in it. Take another text that ParseExpr reads to its end as an expression and that does not start with the word SELECT or WITH. Put it in the place of the literal: the result is accepted, and its tree is the tree of the first text with the expression in the place of the literal, up to positions; nothing else moves, whatever operators the expression has. In particular any string, written as a literal with its quotes doubled, comes out as exactly this string in this place. None of the conditions can be dropped: without parentheses, with SELECT at the start (even in quotes), with an expression not read to its end (1) OR (1), or with 'v' elsewhere too, the tree is another one.", "quantifier": "all templates, expressions, token lists, parser states and dialects that use ordinary word characters", "why_tests_cant": "all pairs of templates and expressions are meant; a test tries a few", "anchors": ["parser.go:ParseExpr", "parser.go:ParseStatement", "parser.go:ParseSQL", "parser.go:parsePrefix", "parser.go:parseSubexpr"]}
{"id": "C56", "title": "Parentheses make a tree writable", "statement": "Printing a tree does not add parentheses, so a tree built by hand may be printed as a text that means something else. But put every operand of an operator in parentheses (a Nested node): if the names, literals, types, operators and queries in the expression can be written at all, then the printed text is read back by ParseExpr, completely, as the tree with these parentheses, up to positions, however the operators were nested; and taking all parentheses away gives back the tree one started with. Without the parentheses this fails.", "quantifier": "all expression trees with writable names, literals and queries, of any depth; all dialects in which the keywords are words", "why_tests_cant": "all trees are meant; a test prints a few", "anchors": ["sqlast/ast.go:Nested", "sqlast/ast.go:BinaryExpr", "parser.go:parseSubexpr", "parser.go:parseInfix"]}
{"id": "C57", "title": "Queries can be filled in", "statement": "Write a template with the query SELECT 'v' in parentheses anywhere a query may stand: after EXISTS or IN, as a scalar, as a derived table, in a common table expression, as an arm of a set operation, in a statement or in one of many; the literal occurs nowhere else, and the parser reads the template beyond these parentheses. Put the text of any other query there that ParseStatement reads completely. Then the template is read again, to the same place, and gives the tree of the template with the tree of the query in this place, up to positions. The query has to start with SELECT or WITH, and not with the words SELECT WITH: there the lookahead loses the word SELECT.", "quantifier": "all templates, queries, nesting depths and texts around; ParseExpr, ParseStatement and ParseSQL; all dialects", "why_tests_cant": "all pairs of a template and a query are meant; a test composes a few", "anchors": ["parser.go:parsePrefix", "parser.go:parseIn", "parser.go:parseTableFactor", "parser.go:parseCTEList", "parser.go:parseQueryBody", "parser.go:parseQuery"]}
{"id": "C58", "title": "Every spelling is understood", "statement": "Where the syntax leaves a choice, every choice is read, and read as the same tree: an alias with or without AS, != or <>, CAST(x AS t) or x::t, INT or INTEGER, VARCHAR or CHAR VARYING or CHARACTER VARYING, CHAR or CHARACTER, TIME and TIMESTAMP with or without WITHOUT TIME ZONE, UNIQUE or UNIQUE KEY, and the six orders of a column's DEFAULT, AUTO_INCREMENT and constraints; tables with no elements or several options and indexes without columns included. Choose a spelling separately at every place of a list of statements, and write the tokens in any layout and letter case: ParseSQL and ParseFile accept the text and give these statements, up to positions and letter case. Two texts that spell the same statements in different ways are read alike.", "quantifier": "all statement lists that can be written, all choices of spelling at all places, all layouts and letter cases; all dialects", "why_tests_cant": "the choices multiply with the size of the statement; a test tries a few combinations", "anchors": ["parser.go:parseOptionalAlias", "parser.go:ParseDataType", "parser.go:parseInfix", "parser.go:parseColumnDefinition", "parser.go:parseColumnConstraints", "parser.go:parseTableConstraints", "parser.go:parseTableOptions", "parser.go:parseElements"]}
{"id": "C59", "title": "Reading from a reader", "statement": "The result of parsing depends only on the bytes the io.Reader has, not on how it cuts them into pieces: single bytes, pieces that split a character, and a last piece that comes together with io.EOF all give the result of the whole text. Claim on errors: an error of the reader is reported.", "quantifier": "all byte sequences and all ways to deliver them, all methods, all dialects", "why_tests_cant": "tests read from strings, which come in one piece; the cuts are unbounded in number", "anchors": ["parser.go:NewParser", "sqltoken/tokenizer.go:NewTokenizer", "sqltoken/tokenizer.go:Tokenize"]}
{"id": "C60", "title": "The command astprinter", "statement": "What cmd/astprinter prints as SQL for a statement is printed unchanged when it is given back to the command. Claim on errors: bad input gets an error message, not a crash.", "quantifier": "all inputs and all ways to deliver them; for the first claim those whose statement can be read back (C18) and may end a text", "why_tests_cant": "the command has no tests; the inputs are unbounded", "anchors": ["cmd/astprinter/main.go:main"]}
{"id": "C61", "title": "What printed SQL is made of", "statement": "Printed SQL consists of printable ASCII characters and of characters of the names and strings in the tree; after parsing, of characters of words and strings of the source. So layout and comments never leak into it, and a file prints as one line for each statement if none of its names and strings contains a newline. Claim: a printed statement is always one line.", "quantifier": "all trees; all texts that parse, under all dialects", "why_tests_cant": "tests compare a few printed texts; a stray character could come from any of the WriteTo methods and any tree", "anchors": ["sqlast/writer.go", "sqlast/ast.go:ToSQLString", "sqlast/ast.go:File.WriteTo"]}
{"id": "C62", "title": "Printed text is not much longer than its source", "statement": "Printing a parsed file gives at most the length of the source and twenty characters for each token that is neither blank nor comment; so at most 21 times the length of the source. The same for single statements and expressions, counted in the tokens they used. Claim: printing never makes a text longer.", "quantifier": "all texts that parse, under all dialects; all calls of ParseStatement and ParseExpr", "why_tests_cant": "a WriteTo that prints a part twice at each level doubles the text with each level of nesting; tests nest two or three levels", "anchors": ["sqlast/writer.go", "sqlast/ast.go:ToSQLString", "parser.go:ParseStatement"]}
{"id": "C63", "title": "Decimals are printed with as few digits as possible", "statement": "A DoubleValue is printed as the decimal with the fewest places (for whole numbers: the most zeros at the end) that reads back as the same number, and as a closest one of these. Different numbers are printed differently, and a decimal literal is never printed longer than it was written.", "quantifier": "all finite non-negative binary64 numbers; all decimal literals", "why_tests_cant": "2^63 numbers; the search for the shortest form could fail on any of them", "anchors": ["sqlast/value.go:DoubleValue", "sqlast/writer.go"]}
{"id": "C64", "title": "What genmark generates", "statement": "genmark rejects a marker type name exactly if it does not start with a capital; else it writes an interface with a private marker method and the embedded names, and a private type with that method, to a file named after the type in snake case. Private names are different for different types, unless a name starts with Sql; camel case names give file names without capitals. Claim: every name gives a file name without capitals, and different names different files.", "quantifier": "all flag values (ASCII names)", "why_tests_cant": "TestToSnake has five names; run is not tested", "anchors": ["tools/genmark/main.go:toSnake", "tools/genmark/main.go:toPrivate", "tools/genmark/main.go:run"]}
{"id": "C65", "title": "How tokens and positions are shown", "statement": "Kind.String shows every kind of token by the name of its constant, every other number as Kind(n), never panics, and shows no two numbers alike. Pos.String shows line and column of any position, and no two positions alike. SQLWord.String shows a word as it is written in the source, quotes included. Claim: also for dialects with other quotes than double quotes and backquotes.", "quantifier": "all kinds, all integers, all positions, all texts and dialects", "why_tests_cant": "there is no test for them; the table of offsets must be right at all 33 places, and numbers outside must not collide with names", "anchors": ["sqltoken/kind_string.go:String", "sqltoken/kind.go", "sqltoken/tokenizer.go:Pos.String", "sqltoken/tokenizer.go:SQLWord.String"]}
{"id": "C66", "title": "A semicolon is a wall", "statement": "What ParseStatement, ParseExpr or ParseDataType does, be it a success, an error or a panic, is decided by the tokens up to the next semicolon: whatever stands behind the semicolon and whatever was read before, the call gives the same tree up to positions and reads as far, or returns an error, or panics in the same way; a call that succeeds never reads the semicolon. So for ParseSQL a text whose last token is a semicolon, accepted or not, a new line and a second text the tokenizer accepts (no byte order mark, its first token no semicolon) give the statements of both, or else the failure of the first text that fails; the same for any number of texts.", "quantifier": "all token lists, all texts that end with a semicolon, all dialects", "why_tests_cant": "it compares every pair of continuations of every failing or succeeding text; tests look at single inputs and mostly at accepted ones", "anchors": ["parser.go:ParseSQL", "parser.go:ParseStatement", "parser.go:ParseExpr", "parser.go:ParseDataType", "parser.go:nextToken", "parser.go:prevToken", "parser.go:parseKeywords"]}
{"id": "C67", "title": "Moving text down moves its positions and nothing else", "statement": "If the tokenizer accepts a text, then after it and a new line any second text (no byte order mark in front) is read as if it stood alone: the same tokens in the same columns, a fixed number of lines further down, or the same failure. So with only blanks, comments or empty lines above it, a text gives the same tree with every set position moved down by that many lines and unset ones left unset, or the same error or panic, in ParseSQL, ParseStatement, ParseExpr and ParseDataType. ParseSQL on whole statements, a new line and a second text gives exactly the statements of the first and those of the second moved down.", "quantifier": "all pairs of texts, all dialects, all four methods, any number of empty lines", "why_tests_cant": "it compares the full trees, positions included, of every text at every place; tests check positions of a few texts that start on line one", "anchors": ["sqltoken/tokenizer.go:Tokenize", "sqltoken/tokenizer.go:next", "sqltoken/tokenizer.go:Scan", "parser.go:ParseSQL", "parser.go:ParseStatement", "parser.go:ParseExpr", "parser.go:ParseDataType"]}
{"id": "C68", "title": "What a lexical error says", "statement": "Tokenize (and NewParser) fails with an error exactly on the texts that have a place where no token starts, and the message is about the first such place: it names the illegal sequence after an exclamation mark, or says that a single quoted string or a comment is not closed, shows all of the string (decoded) or comment that was read, and gives a position. For a string that is where the tokens before it end; for N'...' it is one column further; for a comment it is the end of the input.", "quantifier": "all texts, all dialects, comments kept or dropped", "why_tests_cant": "the message depends on all the tokens before the trouble and on all the text after it; tests compare no messages at all", "anchors": ["sqltoken/tokenizer.go:Tokenize", "sqltoken/tokenizer.go:Scan", "sqltoken/tokenizer.go:next", "sqltoken/tokenizer.go:tokenizeSingleQuotedString", "sqltoken/tokenizer.go:tokenizeMultilineComment", "parser.go:NewParser"]}
{"id": "C69", "title": "How ParseFile groups comments", "statement": "ParseFile returns the statements of ParseSQL, and its comment groups are those found by reading the tokens once from left to right: a group is ended by a token that is neither blank nor comment and by the end of a line on which such a token ended, however often the parser steps back and reads comments again. So there is never code between the comments of a group, the comments above all code are one group, a comment behind code is not grouped with those on the lines below, and below empty lines the whole file moves down unchanged.", "quantifier": "all source texts, all dialects, any number and placement of comments", "why_tests_cant": "the groups are collected while the parser backtracks, so each statement form and each place of a comment in it is a different path; tests look at a few files", "anchors": ["parser.go:ParseFile", "parser.go:nextTokenWithParseComment", "parser.go:NewParser"]}
{"id": "C70", "title": "Giving a parser new tokens", "statement": "A parser made by NewParserWithOptions and given the tokens of a text with SetTokens answers every call as a parser made by NewParser for that text, with and without ParseComment. SetTokens on a parser that has been used keeps the position and the comments: the next call answers as a new parser for the tokens from the old position on, so a second text with no more tokens than were read of the first is answered with no statements and no error, and ParseFile returns the comments of the first text.", "quantifier": "all token lists the tokenizer can make, all parser states, all four methods and ParseFile", "why_tests_cant": "it relates every state a parser can be in after any parse to every next text; tests never use SetTokens", "anchors": ["parser.go:SetTokens", "parser.go:NewParserWithOptions", "parser.go:NewParser", "parser.go:ParseFile", "parser.go:ParseSQL", "parser.go:nextTokenNoSkip", "parser.go:prevTokenNoSkip", "parser.go:tilNonWhitespace"]}
{"id": "C71", "title": "What collecting comments costs", "statement": "With ParseComment the parser looks back over tokens it has read whenever it passes a line break behind a comment. All these looks together are at most three for each token of the text, in every method, whether it succeeds or fails and however often it steps back and passes the same comments again; so the bound on the tokens looked at without ParseComment holds with it, plus three for each token.", "quantifier": "all source texts, all dialects, all four methods, any depth of recursion", "why_tests_cant": "a bound on work over all inputs; a test measures one text", "anchors": ["parser.go:nextTokenWithParseComment", "parser.go:nextToken", "parser.go:prevToken", "parser.go:ParseSQL"]}
{"id": "C72", "title": "How the tokenizer uses its scanner", "statement": "Tokenize is a series of calls of Peek and Next on a text/scanner over the given reader. For every text without lexical errors Next is called exactly once for each character, and Peek at most once for each character, twice for each token and once more; with an error the calls are bounded by three and one for each character. No token needs more than one character of what follows it: Scan gives the same token whatever comes behind that character. Every loop ends within as many rounds as the text has characters, except for a delimited identifier that is never closed, where no number of rounds is enough.", "quantifier": "all readers and byte sequences cut into any pieces, all covered dialects, both modes of the tokenizer", "why_tests_cant": "bounds on the number of calls and independence of the text behind a token over all texts", "anchors": ["sqltoken/tokenizer.go:Tokenize", "sqltoken/tokenizer.go:Scan", "sqltoken/tokenizer.go:next", "sqltoken/tokenizer.go:tokenizeSingleQuotedString", "sqltoken/tokenizer.go:tokenizeMultilineComment"]}
{"id": "C73", "title": "Tokens come as soon as they are decided", "statement": "When the reader given to the tokenizer has delivered a text that splits into some tokens, calls of NextToken return all of them but the last without asking the reader again, whatever it would deliver later and whether it would fail: a tokenizer on a terminal or a network connection answers as soon as one character behind a token has arrived. The last token delivered may still go on, so it is not answered before the reader has been asked again.", "quantifier": "all deliveries of well-formed UTF-8 cut into any pieces, all continuations, all covered dialects, every number of calls", "why_tests_cant": "independence of everything the reader may do later; tests read from complete texts", "anchors": ["sqltoken/tokenizer.go:NextToken", "sqltoken/tokenizer.go:Scan", "sqltoken/tokenizer.go:next", "sqltoken/tokenizer.go:NewTokenizer"]}
{"id": "C74", "title": "Which names can be put into a tree by hand", "statement": "An identifier made with NewIdent(s), printed and read again with ParseExpr, comes back as the same identifier if and only if s is one word of the dialect, plain (a start character followed by part characters) or between delimiters that it does not contain, does not begin with a byte order mark and does not spell TRUE, FALSE, NULL, CASE, CAST, EXISTS or NOT in any case, with or without delimiters. Any other text changes what the SQL says or breaks it.", "quantifier": "all character sequences as names, all covered dialects", "why_tests_cant": "both directions over every text: no list of good and bad names shows that the borderline is exactly there", "anchors": ["sqlast/ast.go:NewIdent", "sqlast/ast.go:Ident.WriteTo", "parser.go:ParseExpr", "parser.go:parsePrefix", "sqltoken/tokenizer.go:next", "sqltoken/tokenizer.go:tokenizeWord"]}
{"id": "C75", "title": "The tokens determine the text", "statement": "Two source texts that give the same tokens (kinds, values and positions) consist of the same pieces, token by token, except for the way lines end, for a leading byte order mark, and for block comments with a star before another character or CR LF inside. In particular texts without carriage returns and byte order mark, one of them without block comment, that give the same tokens are equal: a tool can rebuild a source from its tokens. Kinds and values alone are not enough (the two sorts of comments look the same), and the text of a block comment with a star cannot be rebuilt.", "quantifier": "all pairs of texts, all covered dialects", "why_tests_cant": "injectivity is about all pairs of texts; a test compares one text with its tokens", "anchors": ["sqltoken/tokenizer.go:Tokenize", "sqltoken/tokenizer.go:next", "sqltoken/tokenizer.go:tokenizeMultilineComment", "sqltoken/tokenizer.go:Token"]}
{"id": "C76", "title": "A parser after a failed call", "statement": "ParseStatement, ParseExpr, ParseDataType and ParseSQL never put the parser back before the token they were called at, whether they return a tree or an error or panic, and the first three never use up anything behind the first semicolon. Each call uses up at least one token if there is one, so a client that recovers and calls ParseStatement again after every failure comes to the end of the tokens after at most as many calls as there are tokens. (This fails when the first token is a quoted name like \"\u0131nsert\" with a dotless i: such a client calls for ever. A failed call does not skip the rest of the statement.)", "quantifier": "all token lists, all positions in them, all numbers of calls", "why_tests_cant": "where the parser stands after a failure depends on the place of the failure, of which there is one for every input; that retrying ends is about sequences of calls of any length", "anchors": ["parser.go:ParseStatement", "parser.go:ParseExpr", "parser.go:ParseDataType", "parser.go:nextToken", "parser.go:prevToken", "parser.go:parseKeyword"]}
{"id": "C77", "title": "What Debug prints", "statement": "Debug, and expectKeyword and expectToken before they panic, print the text the parser has read so far, piece by piece, whatever function was called and however it ended: names with their delimiters, string literals without their quotes, comments without their marks, ends of line as line feeds, all else as written. Without strings, comments and carriage returns it is exactly a prefix of the source, and every further call adds to it. (With a string literal it is not the source.)", "quantifier": "all texts, covered dialects, positions and functions called", "why_tests_cant": "the position at a failure differs from input to input; that what is printed is always a prefix of the source is about all of them", "anchors": ["parser.go:Debug", "parser.go:expectKeyword", "parser.go:expectToken", "sqltoken/tokenizer.go:SQLWord.String"]}
{"id": "C78", "title": "The first words tell the kind of a statement", "statement": "The statement that ParseStatement returns has the type that goes with the first word in front of the parser (SELECT or WITH: a query, INSERT, UPDATE, DELETE, CREATE, ALTER, DROP, EXPLAIN, in any case), and behind EXPLAIN the type that goes with the next word. For every statement ParseSQL returns there is such a word in the text, so a text in which no token is INSERT, UPDATE, DELETE, CREATE, ALTER or DROP gives only queries and explained queries: a client can refuse writing statements by their words. (The first word alone is not enough, because of EXPLAIN; a quoted word counts as well.) The same holds for each word by itself: where no token is DROP, say, no statement returned is a DROP, not even behind EXPLAIN; and ParseFile gives the same. The second word tells the rest: a CREATE TABLE, ALTER TABLE or DROP TABLE tree comes from TABLE, a view from MATERIALIZED or VIEW, an index from INDEX or UNIQUE, an INSERT from INTO and a DELETE from FROM.", "quantifier": "all token lists, positions and texts, all covered dialects", "why_tests_cant": "a guard must hold for every text somebody may send; tests try a few", "anchors": ["parser.go:ParseStatement", "parser.go:ParseSQL", "parser.go:parseCreate", "parser.go:parseDrop"]}
{"id": "C79", "title": "The condition of a DELETE or UPDATE comes from a WHERE", "statement": "When ParseStatement returns a DELETE or UPDATE with a Selection, it has read the word WHERE (in any case); when it returns one with a nil Selection, the next token is not WHERE, so no condition of the text is left out of the tree. Exactly: without a Selection the tokens read are the words, the table name and the assignments; with one they go on with WHERE and the tokens of the Selection, and nothing else. The same holds behind EXPLAIN and for every statement ParseSQL returns, and a text in which no token is WHERE gives no Selection. A client that refuses statements changing a whole table can look at Selection alone. (A WHERE somewhere in the statement is not enough: it can belong to a subquery or name the table.)", "quantifier": "all token lists, positions and texts, all covered dialects", "why_tests_cant": "tests show some statements with and without a condition; that none loses its condition is about every text", "anchors": ["parser.go:parseDelete", "parser.go:parseUpdate", "parser.go:ParseStatement", "sqlast/stmt.go:DeleteStmt", "sqlast/stmt.go:UpdateStmt"]}
