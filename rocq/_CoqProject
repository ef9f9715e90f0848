-Q theories Verif
theories/Str.v
theories/Regex.v
theories/Lexer.v
theories/Json.v
theories/Ast.v
theories/ErrInfo.v
theories/Parser.v
theories/Messages.v
theories/Render.v
theories/Helpers.v
theories/Registry.v
theories/Tests.v
theories/StrFacts.v
theories/Spec_Lexer.v
theories/Spec_Ast.v
theories/RegexFacts.v
theories/LexerFacts.v
theories/ParserFacts.v
theories/CallFacts.v
theories/ArgFacts.v
theories/LeafFacts.v
theories/TreeFacts.v
theories/BlockFacts.v
theories/DocFacts.v
theories/ErrFacts.v
theories/FileFacts.v
theories/DocProps.v
theories/Spec_Values.v
theories/ValueFacts.v
theories/NumFacts.v
theories/Spec_Helpers.v
theories/LookupFacts.v
theories/Spec_Render.v
theories/Spec_Blocks.v
theories/Spec_Calls.v
theories/RelFacts.v
theories/FuelFacts.v
theories/UnaryFacts.v
theories/StateFacts.v
theories/OutFacts.v
theories/EvalFacts.v
theories/TermFacts.v
theories/HashFacts.v
theories/LimitFacts.v
theories/CycleFacts.v
theories/BuiltinFacts.v
theories/Props_Lexer.v
theories/Props_Parser.v
theories/Props_Values.v
theories/Props_Render.v
theories/Props_Blocks.v
theories/Props_Calls.v
theories/Spec_Source.v
theories/SynLex.v
theories/SynStr.v
theories/SynPath.v
theories/SynCall.v
theories/SynTag.v
theories/SynDoc.v
theories/SynLink.v
theories/SynItem.v
theories/SynBlock.v
theories/SynLayout.v
theories/Props_Source.v
theories/Spec_Sem.v
theories/SemFacts.v
theories/SemItems.v
theories/Props_Sem.v
theories/Spec_Fail.v
theories/FailFacts.v
theories/FailItems.v
theories/Props_Fail.v
theories/Spec_Total.v
theories/TotalFacts.v
theories/OwnFacts.v
theories/Props_Total.v
theories/Spec_Panic.v
theories/PanicFacts.v
theories/PanicSrc.v
theories/Props_Panic.v
theories/Spec_Context.v
theories/Spec_Files.v
theories/Props_Context.v
theories/SynEval.v
theories/Props_Eval.v
theories/Props_Files.v
theories/Spec_Messages.v
theories/Props_Messages.v
theories/Spec_Display.v
theories/Props_Display.v
theories/Spec_Laws.v
theories/SubFacts.v
theories/Props_Laws.v
theories/Spec_Exchange.v
theories/ExchangeFacts.v
theories/Props_Exchange.v
theories/Spec_Bad.v
theories/BadFacts.v
theories/BadParse.v
theories/BadQuote.v
theories/BadPath.v
theories/BadParse2.v
theories/BadTag.v
theories/WhereFacts.v
theories/BadEvents.v
theories/BadRun.v
theories/Props_Bad.v
theories/Spec_Report.v
theories/ReportFacts.v
theories/Props_Report.v
theories/Props_Where.v
theories/Spec_Offset.v
theories/OffsetFacts.v
theories/Props_Offset.v
theories/Spec_Inject.v
theories/InjectFacts.v
theories/Props_Inject.v
theories/Spec_Unused.v
theories/UnusedFacts.v
theories/Props_Unused.v
theories/Props_Own.v
theories/Spec_Data.v
theories/DataFacts.v
theories/Props_Data.v
theories/Spec_Session.v
theories/Props_Session.v
theories/Props_Unclosed.v
theories/Spec_Extract.v
theories/ExtractFacts.v
theories/Props_Extract.v
theories/Spec_Inside.v
theories/Props_Inside.v
theories/Spec_Nested.v
theories/NestedFacts.v
theories/Props_Nested.v
theories/Assumptions.v
