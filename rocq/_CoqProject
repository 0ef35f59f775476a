-Q theories Verif
theories/Base.v
theories/Dialect.v
theories/Token.v
theories/Lexer.v
theories/AST.v
theories/Num.v
theories/Printer.v
theories/Prog.v
theories/Parser.v
theories/LexSpec.v
theories/Erase.v
theories/ParseSpec.v
theories/LexFacts.v
theories/LexPos.v
theories/LexHang.v
theories/LexThms.v
theories/PropsLexer.v
theories/AstInd.v
theories/Natural.v
theories/Wp.v
theories/Term.v
theories/Sim.v
theories/ErId.v
theories/ParserThms.v
theories/Local.v
theories/SqlThms.v
theories/SrcThms.v
theories/PanicThms.v
theories/ApiThms.v
theories/PropsParser.v
theories/WriteSpec.v
theories/ValueSpec.v
theories/CommentSpec.v
theories/WriteThms.v
theories/NumThms.v
theories/FloatThms.v
theories/ValueThms.v
theories/CommentThms.v
theories/PropsValues.v
theories/Nodes.v
theories/Walk.v
theories/WalkSpec.v
theories/WalkThms.v
theories/PropsWalk.v
theories/PosEnd.v
theories/CommentMap.v
theories/MapSpec.v
theories/MapThms.v
theories/PropsMap.v
theories/Grammar.v
theories/Wlp.v
theories/Sound.v
theories/Slices.v
theories/GrammarThms.v
theories/LossSpec.v
theories/LossThms.v
theories/SpanSpec.v
theories/SpanThms.v
theories/PropsGrammar.v
theories/Apply.v
theories/ApplySpec.v
theories/ApplyThms.v
theories/PropsApply.v
theories/Render.v
theories/RtPrim.v
theories/RtEq.v
theories/RtExpr.v
theories/RtQuery.v
theories/RtStmt.v
theories/RtTop.v
theories/RtLex.v
theories/RoundSpec.v
theories/RtRound.v
theories/PropsRound.v
theories/PrintPos.v
theories/StableSpec.v
theories/StableWalk.v
theories/StableThms.v
theories/PropsStable.v
theories/ErComp.v
theories/LayoutSpec.v
theories/LayoutThms.v
theories/PropsLayout.v
theories/RuleSpec.v
theories/RuleThms.v
theories/PropsRule.v
theories/ExtentSpec.v
theories/ExtentThms.v
theories/PropsExtent.v
theories/CostSpec.v
theories/Cost.v
theories/CostThms.v
theories/PropsCost.v
theories/CutSpec.v
theories/CutThms.v
theories/PropsCut.v
theories/Utf8.v
theories/Utf8Spec.v
theories/Utf8Thms.v
theories/PropsUtf8.v
theories/Literals.v
theories/LiteralSpec.v
theories/LiteralThms.v
theories/PropsLiterals.v
theories/ScanSpec.v
theories/Scan.v
theories/ScanThms.v
theories/PropsScan.v
theories/DialectSpec.v
theories/DialectThms.v
theories/PropsDialect.v
theories/SizeSpec.v
theories/SizeThms.v
theories/PropsSize.v
theories/RenameSpec.v
theories/RenameNat.v
theories/RenameThms.v
theories/RenameWf.v
theories/PropsRename.v
theories/LookSpec.v
theories/LookWalk.v
theories/LookThms.v
theories/PropsLook.v
theories/ParenWalk.v
theories/FillSpec.v
theories/FillWalk.v
theories/FillThms.v
theories/PropsFill.v
theories/WrapSpec.v
theories/WrapThms.v
theories/PropsWrap.v
theories/GraftSpec.v
theories/GraftWalk.v
theories/GraftThms.v
theories/PropsGraft.v
theories/Spell.v
theories/SpPrim.v
theories/SpEq.v
theories/SpExpr.v
theories/SpQuery.v
theories/SpStmt.v
theories/SpTop.v
theories/SpRound.v
theories/PropsSpell.v
theories/Reader.v
theories/ReaderSpec.v
theories/ReaderThms.v
theories/PropsReader.v
theories/CharSpec.v
theories/CharThms.v
theories/PropsChars.v
theories/IntLen.v
theories/ShortSpec.v
theories/FloatShort.v
theories/ShortThms.v
theories/PropsShort.v
theories/LengthSpec.v
theories/LengthThms.v
theories/LengthEnd.v
theories/PropsLength.v
theories/GenmarkSpec.v
theories/Genmark.v
theories/GenmarkThms.v
theories/PropsGenmark.v
theories/Show.v
theories/ShowSpec.v
theories/ShowThms.v
theories/PropsShow.v
theories/Conformance.v
theories/WallSpec.v
theories/WallWalk.v
theories/WallThms.v
theories/PropsWall.v
theories/MoveSpec.v
theories/MoveThms.v
theories/PropsMove.v
theories/LexMsg.v
theories/LexMsgSpec.v
theories/LexMsgThms.v
theories/PropsLexMsg.v
theories/GroupSpec.v
theories/GroupThms.v
theories/GroupMove.v
theories/PropsGroup.v
theories/Session.v
theories/SessionThms.v
theories/PropsSession.v
theories/BackSpec.v
theories/BackThms.v
theories/PropsBack.v
theories/LexProg.v
theories/LexProgThms.v
theories/PropsLexProg.v
theories/Stream.v
theories/StreamThms.v
theories/PropsStream.v
theories/NameSpec.v
theories/NameThms.v
theories/PropsName.v
theories/TextSpec.v
theories/TextThms.v
theories/PropsText.v
theories/After.v
theories/AfterWalk.v
theories/AfterThms.v
theories/PropsAfter.v
theories/Debug.v
theories/DebugThms.v
theories/PropsDebug.v
theories/KindSpec.v
theories/KindThms.v
theories/PropsKind.v
theories/CondSpec.v
theories/CondThms.v
theories/PropsCond.v
