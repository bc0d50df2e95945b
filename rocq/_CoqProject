-Q theories Verif
theories/Base.v
theories/BaseProofs.v
theories/TextSpec.v
theories/LineIndex.v
theories/LineIndexProofs.v
theories/Utf8.v
theories/Utf8Proofs.v
theories/LineEndings.v
theories/LineEndingsProofs.v
theories/DocChanges.v
theories/DocChangesSpec.v
theories/DocChangesProofs.v
theories/Vfs.v
theories/VfsSpec.v
theories/VfsProofs.v
theories/VfsPath.v
theories/FileSet.v
theories/FileSetSpec.v
theories/FileSetProofs.v
theories/Loader.v
theories/PathSpec.v
theories/PathProofs.v
theories/PropText.v
theories/PropVfs.v
theories/Kinds.v
theories/TokenSet.v
theories/Lexer.v
theories/Parser.v
theories/Grammar.v
theories/Sink.v
theories/ModelTests.v
theories/KindsProofs.v
theories/LexSpec.v
theories/LexerRuns.v
theories/LexerProofs.v
theories/LexerStateProofs.v
theories/LexerExact.v
theories/PropLexer.v
theories/TreeSpec.v
theories/GreenSpec.v
theories/ParserLogic.v
theories/GrammarProofs.v
theories/ProcessProofs.v
theories/SinkProofs.v
theories/TermProofs.v
theories/ParseProofs.v
theories/SyntaxSpec.v
theories/ParserTotal.v
theories/AcceptRules.v
theories/AcceptProofs.v
theories/AcceptTop.v
theories/OperatorProofs.v
theories/LimitProofs.v
theories/PropParser.v
theories/PropSyntax.v
theories/Stdx.v
theories/StdxSpec.v
theories/StdxProofs.v
theories/PropStdx.v
theories/Ast.v
theories/Project.v
theories/PropProject.v
theories/PropAst.v
theories/Database.v
theories/Diagnostics.v
theories/Server.v
theories/DatabaseProofs.v
theories/ServerInv.v
theories/ServerSpec.v
theories/ServerRun.v
theories/ServerTheorems.v
theories/DiagSpec.v
theories/DiagProofs.v
theories/DiagRun.v
theories/PropServer.v
theories/PropDiag.v
theories/LenientSpec.v
theories/LenientLogic.v
theories/LenientProofs.v
theories/LenientTop.v
theories/PropLenient.v
theories/TypedProofs.v
theories/PropTyped.v
theories/PropDatabase.v
theories/PropTrivia.v
theories/ShapeSpec.v
theories/ShapeProofs.v
theories/StreamProofs.v
theories/ReblankProofs.v
theories/PropShape.v
theories/LayoutSpec.v
theories/LayoutProofs.v
theories/PropLayout.v
theories/Dispatch.v
theories/DispatchSpec.v
theories/PropDispatch.v
theories/Session.v
theories/SessionSpec.v
theories/PropSession.v
theories/PastSpec.v
theories/PastProofs.v
theories/PropPast.v
theories/ChildOutput.v
theories/ChildOutputSpec.v
theories/ChildOutputProofs.v
theories/PropChildOutput.v
theories/Tags.v
theories/TagsSpec.v
theories/TagsProofs.v
theories/AnnotProofs.v
theories/PropTags.v
theories/Generator.v
theories/GeneratorSpec.v
theories/GeneratorProofs.v
theories/GeneratorLower.v
theories/GeneratorTrees.v
theories/GeneratorCheck.v
theories/PropGenerator.v
theories/FileUrl.v
theories/FileUrlSpec.v
theories/FileUrlProofs.v
theories/PropFileUrl.v
theories/Fixture.v
theories/FixtureSpec.v
theories/FixtureProofs.v
theories/PropFixture.v
theories/UnknownSpec.v
theories/UnknownProofs.v
theories/PropUnknown.v
theories/AbsPath.v
theories/AbsPathSpec.v
theories/AbsPathProofs.v
theories/PropAbsPath.v
theories/Download.v
theories/DownloadSpec.v
theories/DownloadProofs.v
theories/PropDownload.v
theories/Workspaces.v
theories/WorkspacesSpec.v
theories/WorkspacesProofs.v
theories/PropWorkspaces.v
theories/GapSpec.v
theories/GapRules.v
theories/GapProofs.v
theories/GapPhrases.v
theories/GapTop.v
theories/PropGaps.v
theories/AddressProofs.v
theories/ExactProofs.v
theories/PropExact.v
theories/BeforeSpec.v
theories/BeforeProofs.v
theories/PropBefore.v
theories/SharedSpec.v
theories/SharedProofs.v
theories/KeepSpec.v
theories/KeepProofs.v
theories/PropShared.v
theories/PropKeep.v
theories/RegenSpec.v
theories/Regen.v
theories/RegenProofs.v
theories/PropRegen.v
theories/RecoverSpec.v
theories/RecoverLogic.v
theories/RecoverProofs.v
theories/RecoverTop.v
theories/PropRecover.v
theories/PanicContext.v
theories/PanicSpec.v
theories/PanicProofs.v
theories/PropPanicContext.v
theories/SizeProofs.v
theories/PropSize.v
theories/ShiftProofs.v
theories/RestProofs.v
theories/PropRest.v
theories/Dump.v
theories/DumpSpec.v
theories/DumpProofs.v
theories/PropDump.v
theories/AssertLinear.v
theories/AssertLinearSpec.v
theories/AssertLinearProofs.v
theories/PropAssertLinear.v
theories/Version.v
theories/VersionSpec.v
theories/VersionProofs.v
theories/PropVersion.v
theories/DoveOutput.v
theories/DoveOutputSpec.v
theories/PropDoveOutput.v
theories/Selector.v
theories/SelectorSpec.v
theories/PropSelector.v
theories/Ending.v
theories/EndingSpec.v
theories/PropEnding.v
