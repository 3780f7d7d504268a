-Q theories Verif
theories/Base.v
theories/Core.v
theories/Nom.v
theories/Parse.v
theories/Trie.v
theories/Flat.v
theories/MiniRust.v
theories/Gen.v
theories/Items.v
theories/Spec.v
theories/Golden.v
theories/GoldenTests.v
theories/BaseFacts.v
theories/TrieFacts.v
theories/GenFacts.v
theories/ExecFacts.v
theories/NodeFacts.v
theories/CompFacts.v
theories/RunFacts.v
theories/FlatFacts.v
theories/MatchFacts.v
theories/SpecTrie.v
theories/TrieProps.v
theories/PropTrie.v
theories/PropFlat.v
theories/SpecMatch.v
theories/MatchProps.v
theories/MatchThms.v
theories/Examples.v
theories/PropMatch.v
theories/SpecCore.v
theories/CoreFacts.v
theories/PropCore.v
theories/SpecGen.v
theories/GenThms.v
theories/DupThms.v
theories/PropGen.v
theories/SpecCompile.v
theories/CheckFacts.v
theories/CheckNodes.v
theories/CompileFacts.v
theories/CompileExamples.v
theories/PropCompile.v
theories/SpecUnseen.v
theories/UnseenFacts.v
theories/PropUnseen.v
theories/SpecDocs.v
theories/DocFacts.v
theories/PropDocs.v
theories/SpecAsk.v
theories/AskThms.v
theories/AskExamples.v
theories/PropAsk.v
theories/SpecCut.v
theories/CutFacts.v
theories/PropCut.v
theories/ItemText.v
theories/ItemFacts.v
theories/ToPath.v
theories/SpecPath.v
theories/PathThms.v
theories/SpecMount.v
theories/MountThms.v
theories/SpecMountPoint.v
theories/MountPointThms.v
theories/SpecCost.v
theories/CostFacts.v
theories/CostThms.v
theories/PropPath.v
theories/SpecBack.v
theories/BackThms.v
theories/SpecReach.v
theories/ReachThms.v
theories/SearchThms.v
theories/PropBack.v
theories/ReachExamples.v
theories/PropReach.v
theories/PropSearch.v
theories/DepthThms.v
theories/PropDepth.v
theories/SpecChange.v
theories/ChangeThms.v
theories/PropChange.v
theories/EndThms.v
theories/PropEnd.v
theories/SpecItems.v
theories/ItemThms.v
theories/PropItems.v
theories/OrderFacts.v
theories/PropOrder.v
theories/SpecParse.v
theories/ParseFacts.v
theories/RelineFacts.v
theories/RoundFacts.v
theories/DeepFacts.v
theories/PropParse.v
theories/SpecGrammar.v
theories/GrammarFacts.v
theories/PropGrammar.v
theories/SpecOutline.v
theories/OutlineFacts.v
theories/PropOutline.v
theories/Errors.v
theories/SpecErrors.v
theories/ErrorFacts.v
theories/PropErrors.v
theories/NomErr.v
theories/ParseErr.v
theories/SpecReport.v
theories/ReportFacts.v
theories/Build.v
theories/SpecBuild.v
theories/BuildFacts.v
theories/BuildExamples.v
theories/PropBuild.v
theories/PropReport.v
theories/Macros.v
theories/SpecMacros.v
theories/MacroFacts.v
theories/PropMacros.v
theories/Diff.v
theories/SpecDiff.v
theories/DiffFacts.v
theories/PropDiff.v
theories/Cli.v
theories/SpecCli.v
theories/CliFacts.v
theories/PropCli.v
theories/Cases.v
theories/SpecCases.v
theories/CasesFacts.v
theories/PropCases.v
theories/PropEither.v
theories/SpecTypes.v
theories/TypesFacts.v
theories/PropTypes.v
theories/Fixed.v
theories/FixedFacts.v
theories/PropFixed.v
theories/Equal.v
theories/SpecEqual.v
theories/EqualFacts.v
theories/EqualEx.v
theories/PropEqual.v
theories/SpecHeader.v
theories/HeaderFacts.v
theories/PropHeader.v
theories/SpecFailure.v
theories/FailureFacts.v
theories/PropFailure.v
theories/SpecQuestion.v
theories/QuestionFacts.v
theories/PropQuestion.v
theories/PropCost.v
theories/SpecSize.v
theories/SizeFacts.v
theories/PropSize.v
theories/SpecText.v
theories/TextFacts.v
theories/PropText.v
theories/SpecTyped.v
theories/TypedFacts.v
theories/PropTyped.v
theories/RLex.v
theories/RRead.v
theories/SpecRead.v
theories/LexFacts.v
theories/ReadFacts.v
theories/ReadItems.v
theories/CanonFacts.v
theories/ReadGood.v
theories/ReadAll.v
theories/ReadBad.v
theories/ReadExact.v
theories/GoalText.v
theories/ReadExamples.v
theories/PropRead.v
theories/WholeFacts.v
theories/PropWhole.v
theories/SpecSite.v
theories/SiteThms.v
theories/PropSite.v
theories/SpecVerbs.v
theories/VerbThms.v
theories/PropVerbs.v
theories/SpecShape.v
theories/ShapeThms.v
theories/PropShape.v
theories/SpecRename.v
theories/RenameThms.v
theories/PropRename.v
theories/SpecDisk.v
theories/DiskThms.v
theories/PropDisk.v
theories/SpecComment.v
theories/CommentThms.v
theories/PropComment.v
theories/PropMountPoint.v
theories/SpecPass.v
theories/PassThms.v
theories/PropPass.v
theories/SpecMounts.v
theories/MountsThms.v
theories/TogetherThms.v
theories/PropMounts.v
theories/SpecAction.v
theories/ActionThms.v
theories/PropAction.v
theories/SpecCalls.v
theories/CallsThms.v
theories/PropCalls.v
