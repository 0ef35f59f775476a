# Formal model of akito0107/xsqlparser in Rocq (Coq 8.16.1)

Source text of the project: `/repo` (Go). It is read as text; nothing is run.
Everything below `rocq/theories/` is hand-written Gallina; every model
definition carries a comment with the file and lines it models.

Build: `cd rocq && coq_makefile -f _CoqProject -o Makefile && make -j4`.

## 1. The model

| file | models | notes |
|------|--------|-------|
| `Base.v`, `Num.v` | Go runes, strings, `strings.ToUpper`, `EqualFold` on the code's uses, `strconv` | a rune is a `Z`, end of input is -1; a Go string is a list of runes, `len` is its UTF-8 length; binary64 numbers are exact (mantissa, exponent) pairs, rounding is to nearest even |
| `Dialect.v` | `dialect/*.go` | a dialect is a record of three predicates, as in the Go interface; the three shipped dialects are instances |
| `Token.v`, `Lexer.v` | `sqltoken/*.go` | `next`, `Scan`, `Tokenize` with line and column; results token list, error, hang. The input is the rune sequence `text/scanner` hands out (leading BOM removed, invalid bytes already U+FFFD) |
| `Scan.v` | `NextToken`, `Scan`, `Tokenize` on a tokenizer in use | calls one after the other, errors included |
| `Literals.v` | `sqlast/value.go` (`Value`, dates and times), `sqlast/stmt.go` `CopyStmt` | literals and a statement the parser never builds; `time.Time.Format` for their layouts on the civil fields |
| `Utf8.v` | `text/scanner` on bytes, `utf8.EncodeRune` | from bytes to the runes of `Lexer.v` and from strings to bytes |
| `LexHang.v` | `tokenizer.go:281-287` | the endless loop on an unclosed delimited identifier, step by step, to justify the result "hang" of `Lexer.v` |
| `AST.v`, `Nodes.v` | `sqlast` types | typed mutual inductives with all position fields; `Nodes.v` gives every node its Go type name and its struct fields |
| `Prog.v` | `parser.go:2895-3111` | a parser is a tree of token operations (next, peek, previous, keyword sequences) ending in a value, an error, a panic or exhausted fuel. Three machines run the same tree: the raw reader, the comment-collecting reader (`ParseComment`), an abstract reader over the tokens that are not blank |
| `Parser.v` | `parser.go:60-2894` | function by function; nil dereferences, failed type assertions and `log.Panic` are explicit results; recursion through the grammar is tied by a fuel parameter, which C12 proves sufficient and immaterial |
| `Printer.v` | every `WriteTo`, `sqlast/writer.go` | a tree of write operations executed against an arbitrary `io.Writer` |
| `PosEnd.v` | every `Pos` and `End` | `None` is a panic |
| `Walk.v` | `sqlast/walk.go` | any stateful visitor |
| `CommentMap.v` | `sqlast/commentmap.go` | `NewCommentMap` with its panics |
| `Apply.v` | `sqlastutil/rewrite.go` | nodes live in a heap; the cursor, its edits and the iterator are explicit; callbacks are arbitrary functions of a user state that act through the cursor |

Specification files contain no code of the model's functions:
`LexSpec`, `ParseSpec`, `ValueSpec`, `CommentSpec`, `MapSpec`, `WalkSpec`,
`ApplySpec`, `WriteSpec`, `SpanSpec`, `Grammar` (what each tree says as tokens),
`Render` (written form and readable trees), `RoundSpec`, `LayoutSpec`, `RuleSpec`, `ExtentSpec`, `CostSpec`, `CutSpec`, `Utf8Spec`, `LiteralSpec`, `ScanSpec`, `DialectSpec`, `SizeSpec`, `RenameSpec`, `LookSpec`, `FillSpec`, `WrapSpec`, `GraftSpec`, `Spell`, `ReaderSpec`, `CharSpec`, `LengthSpec`, `ShortSpec`, `GenmarkSpec`, `ShowSpec`, `WallSpec`, `MoveSpec`, `LexMsgSpec`, `GroupSpec`, `BackSpec`, `NameSpec`, `TextSpec`, `KindSpec`, `CondSpec`, `StableSpec`, `Erase`.
`Props*.v` state the theorems, each with `Print Assumptions` and a case that
meets its hypotheses. The other files are proofs.

## 2. The properties

"False" means: false of the model, hence of the code as read; the theorem
`..._refuted` gives the input.

| id | result and method |
|----|-------------------|
| C01 | False (unclosed delimited identifier). The answering inputs are characterised exactly, by induction on the text; `LexHang` proves the loop never exits |
| C02, C03, C08, C09 | induction over the token loop against the lexeme relation of `LexSpec` (both directions) |
| C04 | true line and column for the stated class; each restriction refuted by a witness |
| C05, C06 | induction on the literal or the word |
| C07 | line comments verbatim; block comments false, exact class of verbatim bodies proved |
| C10 | simulation of two tokenizer runs |
| C11 | arithmetic |
| C12 | a weakest-precondition walk over all parser functions (`Wp`, `Term`): fuel = tokens left + 2 is enough, more fuel changes nothing; hanging on text is exactly C01's |
| C13, C14 | one simulation theorem by induction on parser trees (`Sim`), then lifted to texts |
| C15, C16 | naturality of all parsers in positions and spellings (`Natural`) |
| C17 | induction on trees: the parser run on the written form of a readable tree gives the tree back (`Rt*`), and the printed text is lexed to the written form (`RtLex`). Trees that cannot be written are shown to be read differently. The text of a File is never accepted (no semicolons are printed) |
| C18 | a partial-correctness walk (`StableWalk`) shows that what the parser returns is readable in the sense of C17 unless a node is in a defect class of `StableSpec`; each class is refuted by an accepted text |
| C19, C20, C22 | a partial-correctness walk (`Wlp`, `Sound`) shows that a returned tree is a reading (`Grammar`) of exactly the consumed tokens; binding is part of the reading and makes the tree unique. Negated forms (`NOT IN`, ...) bind at NOT's level as coded. C22 is false: ten pairs of texts with the same tree. Twelve named defects are tied to the places in the text that can cause them (`trigger`: a token and what follows it). `LossSpec` narrows this to `safe` texts, a condition on the tokens alone that ordinary SQL meets: no parenthesis left open and no `hazard`; then nothing is lost (`LossThms`, by induction on the reading: a table function would leave a parenthesis open, a repeated group of column constraints or DEFAULT is seen between two commas, a comma after the table options stands before `;`). Not sharp: any JOIN with CROSS later in the text counts as a hazard, and so does a named FOREIGN KEY |
| C21, C37 | locality walk (`Local`): nothing below ParseSQL looks past a semicolon; frame property of the reader |
| C23 | False (three kinds of panics); where each can happen is proved from the `Term` walk |
| C24 | False; true for expressions outside seven spellings |
| C25, C26 | decimal and binary64 arithmetic; C26 false for integral values, true for the others |
| C27 | False with a quote; true exactly without |
| C28 | invariant of the comment-collecting reader |
| C29, C30 | loop invariant of `NewCommentMap`; C30 false, exact class proved for all trees and all parsed files |
| C31-C33 | trace relation, induction over trees, stateful visitors; C32 false, hidden fields listed |
| C34, C35, C39 | heap invariant of Apply; list edits as a function of the log of edits; C35 needs that on one element only InsertBefore may follow Delete (refuted otherwise); C39's exception is refuted by a witness |
| C36 | induction over write operations against any writer |
| C38 | extents from the reading relation; false for subqueries (Pos and End swapped), IS NULL (counts on single blanks), `OVER`, `::` (unset) |
| C40 | induction over trees |
| C41 | the reading of the written form (C17) carried to any layout and letter case by naturality (`LayoutThms`) |
| C42 | from C17: the text determines the tree; false for unreadable trees |
| C43 | loop invariant of `NewCommentMap` that follows the stack of open nodes (`RuleThms`) against the line rule of `RuleSpec` |
| C44 | first and last tokens of the grammar's languages, kind by kind (`ExtentThms`), for the nodes that record their place (`ExtentSpec`); the others refuted |
| C45 | cost of a program on a reader (`CostSpec`); budgets walked through every parser function, for all fuel (`Cost`); the readers are asked equally often and each call passes one run of blanks (`CostThms`). The backward scan in nextTokenWithParseComment (parser.go:2971-2981) is counted in C71, the tokenizer in C72 |
| C46 | tokens of a text do not change when a new line or a semicolon follows (`CutThms`, on `lexeme`/`reads`); ParseSQL on significant tokens splits at the semicolon that closes a statement (`SqlThms`); positions by C15 and C44. The side conditions are refuted |
| C47 | the decoder of `text/scanner` and Go's encoder (`Utf8`) against the UTF-8 tables of the Unicode standard (`Utf8Spec`); arithmetic by cases on the number of bytes. Not modelled: a reader that fails (the scanner treats it as the end of the text) |
| C48 | `Value` and the date literals (`Literals`); ISO form and the reading as a subtraction (`LiteralSpec`) by lexing the padded fields and running the expression parser on the five tokens. Field widths are decided by computation over the finite range of each field (years 0 to 9999) |
| C49 | `parse_statement` inspects one word; lifted to source text and scripts through the list of statements of C46 |
| C50 | sequences of `scan` calls (`Scan`) against a cutting of the text (`ScanSpec`), by induction on the text that is left |
| C51 | equality of the readings of a text by two dialects (`DialectSpec`), by induction on the reading of C02 and, for texts with errors, on the tokenizer's loop |
| C52 | lists of all nodes by their fields (`SizeSpec`); each piece of the readings of C22 pays for its nodes, by induction on the tree; walks by C31's description of the calls |
| C53 | the `vocabulary` the parser asks for and renamings of words, tokens and trees (`RenameSpec`); the parser's programs commute with a renaming of its tokens, by induction on the fuel (`RenameNat`), then C15's independence of positions; trees by induction on readable trees (`RenameWf`) and C17; each word of the vocabulary has a computed witness |
| C54 | the bounds (`LookSpec`: `looks`, `stmt_looks`); a calculus that counts the tokens seen from the present position on, one walk over all parse functions (`LookWalk`), a run on two token lists with a common start (`LookThms`), then C13 and C15; a computed witness for every sort of statement shows that the bounds are exact |
| C55 | replacing a literal in a tree (`FillSpec`: `fill_node`, `fill_stmt`, `template`); an expression read before the end of the input is read the same before a closing parenthesis (`ParenWalk`); two runs side by side, one on the template and one on the filled text, through all parse functions (`FillWalk`), then C13, C15 and the tokenizer specification for texts (`FillThms`); computed witnesses show that each condition is needed |
| C56 | the tree with parentheses and without any (`WrapSpec`: `wrap`, `strip`, `able`); by induction over trees the one with parentheses is writable in the sense of C17 (`WrapThms`) |
| C57 | the query SELECT 'v' in a tree and its replacement (`GraftSpec`: `stands`, `graft_*`); two runs of the parser side by side, which agree until the parentheses, come out of them together, and agree behind them, or the first stops inside (`GraftWalk`); a query read before a semicolon is read before a parenthesis (`ParenWalk`) |
| C58 | a style chooses a spelling at every place (`Spell`: `style`, `s_*`, `ok_*`), independent of parser and printer; the parser is run on the spelled tokens, function by function, as for C17, for every style at once (`SpPrim` … `SpTop`), then from tokens to texts by the erasure theorem (`SpRound`) |
| C59 | text/scanner as the tokenizer uses it: a buffer filled by Read until it begins with a whole rune, DecodeRune, Peek, Next (`Reader`); spec: the bytes of the deliveries and a list with a head (`ReaderSpec`); induction on the deliveries and on the bytes left (`ReaderThms`). Errors: refuted by a witness, exact behaviour proved |
| C60 | the command as a function of what its reader delivers (`Reader`: `astprinter`); from C18, C08 and C59 |
| C61 | the printer (`Printer`) and the tokens; spec: the characters a node holds and a token says, the lines of a text (`CharSpec`); induction on the tree over every WriteTo, then C44 for where names and strings come from (`CharThms`) |
| C62 | the parser and the printer; spec: what is written for a token, an allowance for each (`LengthSpec`); induction over the grammar of C19/C44: every token pays for the characters printed for it (`LengthThms`), then C01 and C63 for the length of lexemes (`LengthEnd`, `IntLen`) |
| C63 | `format_float` (strconv.AppendFloat 'f' -1, in `Num`) and `parse_float`; spec: decimal texts and the rationals they denote (`ShortSpec`), nearest binary64 (`ValueSpec`); rounding is a function with convex preimages, so the two neighbours decide each number of places, and the search ends because powers of ten are fine enough (`FloatShort`, `ShortThms`) |
| C64 | `Genmark`: toSnake, toPrivate and run of tools/genmark, without flag parsing, go/format and writing the file; spec: camel-case words, the lines of the file (`GenmarkSpec`, `CharSpec`); induction on the words and letters (`GenmarkThms`) |
| C65 | `Show`: Kind.String with its two tables, Pos.String; spec: the names of the constants, integers as texts (`ShowSpec`); the 32 kinds by computation, other numbers by injectivity of decimal notation (`ShowThms`) |
| C66 | the parser as a whole; spec: tokens up to the first semicolon, results one after the other (`WallSpec`); one walk over all parse functions: after reading a semicolon a function puts it back or fails (`WallWalk`), a run on two texts that differ behind it, then C13, C15, C21 and the tokenizer specification (`WallThms`) |
| C67 | the tokenizer's positions and the parser as a whole; spec: a position some lines down, how many lines the tokenizer counts (`MoveSpec`); the tokenizer specification commutes with moving down, texts joined at a new line as in C46 but with exact positions, then C15 (positions are copied) and the split at a semicolon (`MoveThms`) |
| C68 | `LexMsg`: the three messages of the tokenizer and how Scan and NewParser wrap them (xerrors shows the outer text, a colon, the inner text; a Pos value under %+v is shown as a struct because String has a pointer receiver); spec: what is said about a text that starts with no token (`LexMsgSpec`); induction on the reading of C02 and C08 (`LexMsgThms`) |
| C69 | `cm_machine` and ParseFile; spec: one pass over the tokens (`GroupSpec`); the invariant of C28 extended by the exact groups, the backward scan of parser.go:2971-2981 shown to find the last code because lines never decrease (`GroupThms`); consequences (`GroupMove`) |
| C70 | `Session`: the struct Parser with slice, index, map and option, its token functions on the index, SetTokens, NewParserWithOptions; simulation with the readers on lists, also with the index behind the tokens (`SessionThms`), then C13 and C37 |
| C71 | `cm_machine`; spec: rounds of the backward loop in a call and in a run (`BackSpec`); a potential: what looking back once from every line break would cost; by the invariant of C28 a line break is looked back from only when it is passed for the first time; lines bound the potential (`BackThms`) |
| C72 | `LexProg`: the tokenizer as a program of Peek and Next calls, case by case, loops with rounds; run on a text and on the scanner of `Reader`; each loop is the recursive function of `Lexer` (so `Lexer` is justified call by call), bounds by induction on the text; a program that leaves the character behind a token unread has not seen further (`LexProgThms`) |
| C73 | `Stream`: several calls of NextToken as a program of Peek and Next calls (`LexProg`) on the scanner of `Reader`; invariant: the scanner holds the next character and the rest of the delivered text lies before the later deliveries; a program that leaves a character has not gone further (`StreamThms`) |
| C74 | `NameSpec`: words of a dialect and the words that begin another expression; forward by the reading of an identifier (`expr_reads`) and the lossless split of the text, backward by tokenizing and parsing one word symbolically (`NameThms`) |
| C75 | two readings of C02 with the same tokens, side by side: a piece is decided by kind and value except ends of line and comments, and the end position tells the two sorts of comments apart (`TextSpec`, `TextThms`) |
| C76 | a walk over every parser function that never goes back beyond its start and holds at failures too, the walk of C66 for the semicolon, and the first keyword read twice (`After`, `AfterWalk`, `AfterThms`); the state at a failure is that after the token calls made so far |
| C77 | the token calls keep the tokens together, so the tokens read are a prefix of those of C02, and each piece is compared with the value printed for it (`Debug`, `DebugThms`); that the position grows is C76 |
| C78 | what each statement function can return, the walk of C76 with the tokens kept together, and the loop of ParseSQL with every statement at a suffix of the tokens; the second word by the same walk (`KindSpec`, `KindThms`) |
| C79 | the walk of C76 with the tokens read and the rest kept together; only parseDelete and parseUpdate set the field, both with the optional WHERE as the last thing they read; C79_exact from the grammar of C19 (`CondSpec`, `CondThms`) |

Every property is expressed; none is partial.

## 3. Trusted base

* Coq's kernel (8.16.1). `Print Assumptions` answers "Closed under the global
  context" for every theorem in `Props*.v`: no axioms at all are used. (The
  checker also lists seven constants of `Coq.ssr.ssrunder`; these belong to a
  loaded standard library file and no theorem depends on them.)
* The reading of the Go source into Gallina (comments cite lines). As evidence
  for it, `Conformance.v` runs 176 cases of the project's own tests on the model
  (tokenizer, parser, printing, end to end files, comment maps, Apply, genmark);
  all agree with what the tests expect. These are tests, not proofs. Three
  printing cases are left out: they print an `ObjectName` or a `SelectExpr` as
  a node of its own, which the model does not have.
* Go's standard library as written in `Base.v` and `Num.v`: `unicode.ToUpper`
  and folding on the letters that matter for ASCII keywords, `strconv.Atoi`,
  `ParseFloat`, `FormatInt`, `FormatFloat`, `text/scanner.Next` (`Reader.v`:
  with its buffer over an arbitrary `io.Reader`),
  `sort.Slice` (any order of equal elements), `strings.Builder`.
* For Apply: slices are not shared between nodes, inserted and replaced nodes
  have a type the field accepts (otherwise `reflect` panics), callbacks change
  the tree only through the cursor. The memory after a panic other than
  Apply's own abort is not described.

## 4. Not modelled

Error message texts of the parser (those of the tokenizer are modelled in LexMsg.v); which failures print to stdout (what `expectKeyword`/`expectToken` print when they do is modelled in Debug.v); Go
stack exhaustion and memory; the tree dump of `cmd/astprinter` (what it prints as
SQL is modelled); formatting and writing of what `tools/genmark` generates;
`example/`; what `text/scanner` complains about on
stderr; `astutil` helpers other than Apply; `SelectExpr`
and `PartitionedJoinTable`, which the parser never builds; `NewDateTimeValue`-style
constructors.

## 5. Wrong programs

`seeded/LOG.jsonl` lists edits of the model that introduce a realistic bug, the
claim it breaks, the theorems that fail to prove, and what was tightened when
none did.
