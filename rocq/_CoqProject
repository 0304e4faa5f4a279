-Q theories Verif

theories/Base.v
theories/Varint.v
theories/VarintSpec.v
theories/VarintProofs.v
theories/PropVarint.v
theories/Wire.v
theories/Codec.v
theories/WireProofs.v
theories/Utf8.v
theories/CodecSpec.v
theories/CodecProofs.v
theories/SchemaSpec.v
theories/Safety.v
theories/Stable.v
theories/Size.v
theories/PrefixOk.v
theories/EvolutionSpec.v
theories/Entries.v
theories/Evolution.v
theories/EvolutionMore.v
theories/WireMore.v
theories/Demo.v
theories/PropWire.v
theories/PropCodec.v
theories/Syntax.v
theories/Parser.v
theories/Printer.v
theories/ParserSpec.v
theories/ParserTotal.v
theories/ParserConform.v
theories/ParserRound.v
theories/ParserRound2.v
theories/ParserRound3.v
theories/PropParser.v
theories/Compiler.v
theories/CompilerSpec.v
theories/CompilerClaims.v
theories/CompilerProofs.v
theories/CompilerMore.v
theories/GenProofs.v
theories/PropCompiler.v
theories/Resolve.v
theories/ResolveSpec.v
theories/ResolveClaims.v
theories/ResolveProofs.v
theories/PropResolve.v
theories/Lower.v
theories/Meta.v
theories/LowerProofs.v
theories/MetaSpec.v
theories/MetaProofs.v
theories/PropMeta.v
theories/Lsp.v
theories/LspSpec.v
theories/LspProofs.v
theories/LspServer.v
theories/PropLsp.v
theories/ProjectSpec.v
theories/ProjectProofs.v
theories/PropProject.v
theories/Go.v
theories/GoSpec.v
theories/GoProofs.v
theories/PropGo.v
theories/WireDoc.v
theories/WireDocProofs.v
theories/WireDocRead.v
theories/PropFormat.v
theories/Tools.v
theories/ToolsSpec.v
theories/ToolsProofs.v
theories/PropBuild.v
theories/PropGoOut.v
theories/PropCli.v
theories/PropDoc.v
theories/Cost.v
theories/CostProofs.v
theories/PropCost.v
theories/Const.v
theories/PropConst.v
theories/GoNames.v
theories/PropGoNames.v
theories/SpanParser.v
theories/LspVisit.v
theories/TokenSpec.v
theories/NameSpec.v
theories/OutlineSpec.v
theories/SpanProofs.v
theories/SpanTypes.v
theories/SpanDefs.v
theories/SpanSchema.v
theories/SpanLsp.v
theories/SpanPlaced.v
theories/OutlineProofs.v
theories/PropSpan.v
theories/Diagnose.v
theories/DiagnoseSpec.v
theories/DiagnoseProofs.v
theories/PropDiagnose.v
theories/Grammar.v
theories/GrammarSound.v
theories/GrammarComplete.v
theories/PropGrammar.v
theories/RustCode.v
theories/RustEval.v
theories/RustTyping.v
theories/RustSpec.v
theories/RustTypingProofs.v
theories/RustTypeChecks.v
theories/RustItems.v
theories/RustEvalProofs.v
theories/RustDecProofs.v
theories/RustRecursion.v
theories/RustRecursionProofs.v
theories/Fuel.v
theories/PropRust.v
theories/DecSound.v
theories/PropSound.v
theories/PropEnd.v
theories/ErrParser.v
theories/ErrProofs.v
theories/ErrConform.v
theories/LspCompile.v
theories/PropErr.v
theories/ErrViable.v
theories/ErrViableLit.v
theories/ErrViableDef.v
theories/PropViable.v
theories/RustTokens.v
theories/RustTokensProofs.v
theories/PropRustNames.v
theories/ErrLate.v
theories/LspSession.v
theories/SessionProofs.v
theories/PropSession.v
theories/Amplify.v
theories/PropAmplify.v
theories/GoSize.v
theories/PropGoSize.v
theories/LResolve.v
theories/LResolveSpec.v
theories/LResolveProofs.v
theories/LResolveErase.v
theories/PropLResolve.v
theories/DocText.v
theories/DocTextProofs.v
theories/PropDocText.v
theories/GoFile.v
theories/GoConform.v
theories/GoClosed.v
theories/GoClosedProofs.v
theories/PropGoClosed.v
theories/PropGoText.v
theories/GoEval.v
theories/GoEvalProofs.v
theories/GoEvalDec.v
theories/GoEvalFile.v
theories/PropGoEval.v
theories/LspReal.v
theories/PropLspReal.v
theories/Bench.v
theories/PropBench.v
theories/Package.v
theories/PropPackage.v
theories/PropHash.v
theories/ProjectCli.v
theories/PropProjectCli.v
theories/RustFile.v
theories/RustConform.v
theories/RustRead.v
theories/RustMeans.v
theories/RustReadProofs.v
theories/RustReadProofs2.v
theories/RustReadProofs3.v
theories/RustReadProofs4.v
theories/PropRustText.v
theories/RustFileRead.v
theories/RustFileReadProofs.v
theories/PropRustFile.v
theories/RustLit.v
theories/PropRustLit.v
theories/GoLit.v
theories/PropGoLit.v
theories/Html.v
theories/DocPage.v
theories/PropDocPage.v
theories/DocPageEx.v
theories/PropDocLinks.v
theories/SizeText.v
theories/PropSizeText.v
theories/PropDocRead.v
theories/PropInclude.v
theories/PropBuildProject.v
theories/PropGoMany.v
theories/PropGoProject.v
