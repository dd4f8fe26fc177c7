-Q theories Verif
theories/Base.v
theories/SyntaxKind.v
theories/TokenSet.v
theories/Accept.v
theories/Lexer.v
theories/BindingPowers.v
theories/Parser.v
theories/Grammar.v
theories/Event.v
theories/Tree.v
theories/TreeSink.v
theories/Ast.v
theories/Validation.v
theories/Snapshots.v
theories/ParserTree.v
theories/ParserRefine.v
theories/EventProofs.v
theories/SinkProofs.v
theories/LexerDirect.v
theories/LexSpec.v
theories/LexerProofs.v
theories/LexerClass.v
theories/LexerProps.v
theories/LexerNum.v
theories/LexerFwd.v
theories/PropsLexer.v
theories/GrammarSpec.v
theories/ParserTotal.v
theories/ParserTotal2.v
theories/ParseSpec.v
theories/ParseProofs.v
theories/StrictTree.v
theories/DressProofs.v
theories/ValidProofs.v
theories/PropsParser.v
theories/ValidSpec.v
theories/ValidExact.v
theories/PropsValid.v
theories/PropsSmall.v
theories/PropsAccept.v
theories/TextEdit.v
theories/PropsTextEdit.v
theories/Stdx.v
theories/PropsStdx.v
theories/LineIndex.v
theories/PropsLineIndex.v
theories/Vfs.v
theories/PropsVfs.v
theories/Ide.v
theories/Server.v
theories/PropsIde.v
theories/ServerInv.v
theories/PropsServer.v
theories/PropsRequests.v
theories/PropsDiag.v
theories/PropsTotal.v
theories/Ptr.v
theories/PropsPtr.v
theories/Reparse.v
theories/PropsReparse.v
theories/Hir.v
theories/PtrExact.v
theories/PropsHir.v
theories/LuaSyntax.v
theories/LuaDialect.v
theories/LuaRun.v
theories/LuaComplete.v
theories/LuaTree.v
theories/PropsLua.v
theories/ParserFuel.v
theories/LocalProofs.v
theories/LocalDress.v
theories/PropsLocal.v
theories/PropsShape.v
theories/LexRules.v
theories/PropsLexRules.v
theories/PropsClient.v
theories/AstNodes.v
theories/PropsAst.v
theories/Loader.v
theories/Session.v
theories/PropsLoader.v
theories/PropsFiles.v
theories/PropsClosed.v
theories/PropsShown.v
theories/Grouping.v
theories/GroupProofs.v
theories/PropsGroup.v
theories/TreeComplete.v
theories/PropsLang.v
theories/PropsExact.v
theories/PropsReport.v
theories/PropsClean.v
theories/TreeSize.v
theories/PropsSize.v
theories/Codegen.v
theories/PropsCodegen.v
theories/GrammarDoc.v
theories/DocProofs.v
theories/DocConverse.v
theories/DocMatch.v
theories/PropsDoc.v
theories/TestUtils.v
theories/PropsTestUtils.v
theories/Uri.v
theories/PropsUri.v
theories/LexClean.v
theories/BlockSwap.v
theories/BlockDress.v
theories/PropsBlock.v
theories/PropsMerge.v
theories/SuffixProofs.v
theories/PropsSuffix.v
theories/LookProofs.v
theories/PropsPrefix.v
theories/PropsEdits.v
theories/PropsSession.v
theories/Paths.v
theories/PropsPaths.v
theories/PropsPositions.v
theories/PropsFatal.v
theories/HashOrder.v
theories/PropsOrder.v
theories/Depth.v
theories/DepthSpec.v
theories/DepthProofs.v
theories/PropsDepth.v
theories/PropsVersions.v
theories/Work.v
theories/WorkProofs.v
theories/PropsWork.v
theories/CrLf.v
theories/CrLfTokens.v
theories/CrLfTree.v
theories/PropsCrLf.v
theories/FirstProofs.v
theories/PropsFirst.v
theories/ContProofs.v
theories/ContGrammar.v
theories/ContOpen.v
theories/PropsContinue.v
theories/SaysProofs.v
theories/SaysNames.v
theories/SaysGrammar.v
theories/SaysFname.v
theories/PropsSays.v
