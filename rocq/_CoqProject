-Q theories Verif
theories/PyStr.v
theories/Defs.v
theories/UrlLib.v
theories/ParseUtils.v
theories/Spec.v
theories/PyStrProofs.v
theories/DefsProofs.v
theories/RegexProofs.v
theories/PieceProofs.v
theories/LengthProofs.v
theories/QueryProofs.v
theories/UnitProofs.v
theories/BridgeProofs.v
theories/PropPiece.v
theories/PropQuery.v
theories/PropUnit.v
theories/UrlProofs.v
theories/PackProofs.v
theories/DigestProofs.v
theories/PropUrl.v
theories/Views.v
theories/Trees.v
theories/Cluster.v
theories/Patterns.v
theories/Matcher.v
theories/Maker.v
theories/Format.v
theories/Cmd.v
theories/TestModel.v
theories/Observe.v
theories/TreeProofs.v
theories/LoadProofs.v
theories/DictProofs.v
theories/MiscProofs.v
theories/PropLoad.v
theories/PropMisc.v
theories/GroupProofs.v
theories/LengthStage.v
theories/PieceStage.v
theories/EntProofs.v
theories/GenCluster.v
theories/TokProofs.v
theories/FlatCluster.v
theories/ViewProofs.v
theories/KeyProofs.v
theories/MultiStage.v
theories/TokUniq.v
theories/RouteProofs.v
theories/OuterLevel.v
theories/OuterCluster.v
theories/MakeProofs.v
theories/PatUnits.v
theories/PartProofs.v
theories/PropMake.v
theories/ViewExact.v
theories/ViewSpec.v
theories/PropView.v
theories/CmdProofs.v
theories/PropCmd.v
theories/MatchVms.v
theories/MatchTree.v
theories/MatchSem.v
theories/MatchLevel.v
theories/MatchNest.v
theories/MatchSpec.v
theories/PropMatch.v
theories/MatchDigest.v
theories/MatchUnits.v
theories/MatchKeys.v
theories/MatchSound.v
theories/MatchTop.v
theories/PropSound.v
theories/MatchReload.v
theories/PropReload.v
theories/MatchExact.v
theories/MatchTakes.v
theories/MatchPos.v
theories/PropExact.v
theories/OwnSpec.v
theories/MatchOwn.v
theories/PropOwn.v
theories/MatchBest.v
theories/OrderSpec.v
theories/PropOrder.v
theories/PropBest.v
theories/Utf8.v
theories/CmdSpec.v
theories/CmdMatch.v
theories/PropAnswer.v
theories/AnyOrder.v
theories/AnyBase.v
theories/AnyLevel.v
theories/AnyGen.v
theories/AnyFlat.v
theories/AnyMulti.v
theories/AnyOuter.v
theories/AnyMake.v
theories/AnySpec.v
theories/PropAny.v
theories/Pipe.v
theories/PropPipe.v
theories/JsonSpec.v
theories/JsonProofs.v
theories/PropJson.v
theories/GrammarSpec.v
theories/Grammar.v
theories/PropGrammar.v
theories/UrlSpec.v
theories/UrlExact.v
theories/PropAbs.v
theories/Ete.v
theories/EteSpec.v
theories/EteProofs.v
theories/PropEte.v
theories/MatchTotal.v
theories/CmdTotal.v
theories/PropTotal.v
theories/LocalSpec.v
theories/Local.v
theories/PropLocal.v
theories/TightSpec.v
theories/TightProofs.v
theories/PropTight.v
theories/StableSpec.v
theories/Stable.v
theories/PropStable.v
theories/OneSpec.v
theories/OneLevel.v
theories/OneTree.v
theories/OneCluster.v
theories/OneMake.v
theories/PropOne.v
theories/MetaSpec.v
theories/Erase.v
theories/OutSpec.v
theories/OutProofs.v
theories/EraseMatch.v
theories/PropMeta.v
theories/PropOut.v
theories/Lazy.v
theories/LazySpec.v
theories/LazyProofs.v
theories/PropLazy.v
theories/Para.v
theories/RenameSpec.v
theories/Rename.v
theories/PropRename.v
theories/Re.v
theories/ReProofs.v
theories/ReSpec.v
theories/PropRe.v
theories/RenameUnits.v
theories/RenameMatch.v
theories/RenameState.v
theories/RenamePat.v
theories/PropRenameMatch.v
theories/RefSpec.v
theories/UrlRef.v
theories/PropRef.v
theories/SlashSpec.v
theories/MatchSlash.v
theories/SlashTop.v
theories/CmdSlash.v
theories/PropSlash.v
theories/FewProofs.v
theories/PropFew.v
theories/Files.v
theories/FileSpec.v
theories/FileProofs.v
theories/PropFile.v
theories/BackSpec.v
theories/BackProofs.v
theories/PropBack.v
theories/Heap.v
theories/HeapSpec.v
theories/HeapProofs.v
theories/HeapLoad.v
theories/HeapState.v
theories/HeapTop.v
theories/PropHeap.v
theories/Log.v
theories/LogSpec.v
theories/LogProofs.v
theories/PropLog.v
theories/UrlEnd.v
theories/FanCluster.v
theories/RunFlat.v
theories/RunStage.v
theories/RunLevel.v
theories/RunOuter.v
theories/RunView.v
theories/RunSpec.v
theories/RunCluster.v
theories/RunMake.v
theories/PropRun.v
theories/RunFam.v
theories/RunInert.v
theories/RunCut.v
theories/HCluster.v
theories/HCombine.v
theories/HcBase.v
theories/HcBag.v
theories/HcLevel.v
theories/HcStage.v
theories/HcPaths.v
theories/HcLen.v
theories/HcRun.v
theories/HcProc.v
theories/HcLoop.v
theories/HcInst.v
theories/HMakeSpec.v
theories/HcMake.v
theories/HcCombine.v
theories/HcState.v
theories/HcTop.v
theories/HcCombTop.v
theories/PropHMake.v
theories/PropHCombine.v
theories/Conf.v
theories/ConfSpec.v
theories/ConfText.v
theories/ConfRead.v
theories/ConfTop.v
theories/ConfMain.v
theories/PropConf.v
theories/HLazy.v
theories/HLazySpec.v
theories/HLazyProofs.v
theories/HLazyComb.v
theories/HLazyTop.v
theories/HLazyCase.v
theories/PropHLazy.v
theories/HClose.v
theories/HCloseSpec.v
theories/HCloseProofs.v
theories/HCloseCase.v
theories/PropHClose.v
