-Q theories Verif
theories/PyBase.v
theories/PyFacts.v
theories/TyModel.v
theories/TyFacts.v
theories/PropsTy.v
theories/DiagModel.v
theories/DiagSpec.v
theories/DiagFacts.v
theories/DiagRot.v
theories/DiagPerm.v
theories/DiagCups.v
theories/DiagMisc.v
theories/Cat.v
theories/CatFacts.v
theories/CatRel.v
theories/BoxEq.v
theories/SnakeModel.v
theories/SnakeFacts.v
theories/SnakeSpec.v
theories/SnakeYank.v
theories/SnakeMain.v
theories/CatDual.v
theories/PropsDiag.v
theories/PropsSnake.v
theories/UtilModel.v
theories/UtilFacts.v
theories/PropsUtil.v
theories/DataModel.v
theories/DataFacts.v
theories/PropsData.v
theories/TrainModel.v
theories/TrainFacts.v
theories/TrainResume.v
theories/TrainCosts.v
theories/PropsTrain.v
theories/OptModel.v
theories/OptFacts.v
theories/OptNM.v
theories/PropsOpt.v
theories/CCGModel.v
theories/CCGSpec.v
theories/CCGTypeFacts.v
theories/DiagKinds.v
theories/CCGRuleFacts.v
theories/CCGTreeFacts.v
theories/CCGDiagFacts.v
theories/CCGMoreFacts.v
theories/CCGPrune.v
theories/FunctorModel.v
theories/FunctorSpec.v
theories/FunctorCache.v
theories/FunctorFacts.v
theories/JsonModel.v
theories/JsonSpec.v
theories/JsonFacts.v
theories/PropsCCG.v
theories/RewModel.v
theories/RewSpec.v
theories/RewFacts.v
theories/RewCache.v
theories/RewUnk.v
theories/RemCupsModel.v
theories/RemCupsSpec.v
theories/RemCupsFacts.v
theories/RemSwapsModel.v
theories/RemSwapsSpec.v
theories/RemSwapsFacts.v
theories/CellModel.v
theories/CellSpec.v
theories/CellFacts.v
theories/MiscModel.v
theories/MiscSpec.v
theories/MiscFacts.v
theories/GDiag.v
theories/GDiagSpec.v
theories/GDiagFacts.v
theories/QModel.v
theories/QSpec.v
theories/QFacts.v
theories/QPlace.v
theories/QApply.v
theories/QGenSpec.v
theories/QGen.v
theories/QSpider.v
theories/QReadSpec.v
theories/QRead.v
theories/TnModel.v
theories/TnSpec.v
theories/TnFacts.v
theories/TnMixModel.v
theories/TnMixSpec.v
theories/TnMixFacts.v
theories/LamModel.v
theories/LamSpec.v
theories/LamFacts.v
theories/QCirc.v
theories/AnsatzModel.v
theories/AnsatzSpec.v
theories/AnsatzFacts.v
theories/AnsatzCirc.v
theories/AnsatzAr.v
theories/AnsatzNameModel.v
theories/AnsatzNameFacts.v
theories/AnsatzDiagSpec.v
theories/AnsatzTop.v
theories/SplitModel.v
theories/SplitSpec.v
theories/SplitFacts.v
theories/ReaderModel.v
theories/ReaderSpec.v
theories/ReaderFacts.v
theories/BankModel.v
theories/BankSpec.v
theories/BankFacts.v
theories/BobModel.v
theories/BobSpec.v
theories/BobFacts.v
theories/PrintModel.v
theories/PrintSpec.v
theories/PrintFacts.v
theories/PrintTracks.v
theories/PrintDraw.v
theories/PrintHead.v
theories/TreeModel.v
theories/TreeSpec.v
theories/TreeFacts.v
theories/TreeRew.v
theories/CircModel.v
theories/CircSpec.v
theories/CircPerm.v
theories/CircRun.v
theories/CircMatch.v
theories/CircStep.v
theories/CircText.v
theories/CircFrames.v
theories/CircSand.v
theories/CircWord.v
theories/CircSlots.v
theories/CircPrep.v
theories/CircPrune.v
theories/CircAll.v
theories/TdModel.v
theories/TdSpec.v
theories/TdDraw.v
theories/TdComps.v
theories/TdPairs.v
theories/TdWires.v
theories/TdFix.v
theories/TdPlanar.v
theories/TdGen.v
theories/DtModel.v
theories/DtRead.v
theories/DtBuild.v
theories/DtTrip.v
theories/PbModel.v
theories/PbSpec.v
theories/PbFacts.v
theories/PbBatch.v
theories/PbTag.v
theories/FsModel.v
theories/FsSpec.v
theories/FsFacts.v
theories/ChModel.v
theories/ChSpec.v
theories/ChCell.v
theories/ChChart.v
theories/ChFinal.v
theories/CCGWide.v
theories/BtModel.v
theories/BtSpec.v
theories/BtFacts.v
theories/LayModel.v
theories/LaySpec.v
theories/LayFacts.v
theories/LayInv.v
theories/LayFinal.v
theories/LayEnd.v
theories/LayDone.v
theories/LayScale.v
theories/LayDemo.v
theories/LossModel.v
theories/LossSpec.v
theories/LossFacts.v
theories/TurnSpec.v
theories/TurnFacts.v
theories/RemCupsDen.v
theories/CatRelTurn.v
theories/PlModel.v
theories/PlSpec.v
theories/PlFacts.v
theories/PlRun.v
theories/PlEval.v
theories/PlEx.v
theories/PoModel.v
theories/PoSpec.v
theories/PoCache.v
theories/PoNet.v
theories/PoUse.v
theories/CirModel.v
theories/CirSpec.v
theories/CirList.v
theories/CirPull.v
theories/CirRun.v
theories/CirLoop.v
theories/CirMain.v
theories/CirUse.v
theories/PropsFunctor.v
theories/RewFill.v
theories/PropsRewrite.v
theories/PropsRemCups.v
theories/PropsRemSwaps.v
theories/PropsCell.v
theories/PropsMisc.v
theories/PropsQuantum.v
theories/PropsTn.v
theories/PropsLam.v
theories/PropsAnsatz.v
theories/PropsSplit.v
theories/PropsReader.v
theories/PropsBank.v
theories/PropsBob.v
theories/PropsPrint.v
theories/PropsTree.v
theories/PropsCirc.v
theories/PropsTd.v
theories/PropsDt.v
theories/PropsPb.v
theories/PropsFs.v
theories/PropsCh.v
theories/PropsBt.v
theories/PropsLay.v
theories/PropsLoss.v
theories/PropsPl.v
theories/PropsPo.v
theories/CirSem.v
theories/PropsCir.v
theories/LxModel.v
theories/LxSpec.v
theories/LxFacts.v
theories/PropsLx.v
theories/FunctorDenSpec.v
theories/FunctorDen.v
theories/FunctorNf.v
theories/PropsFunctorDen.v
theories/RcModel.v
theories/RcSpec.v
theories/RcFacts.v
theories/PropsRc.v
theories/CliModel.v
theories/CliSpec.v
theories/CliFacts.v
theories/PropsCli.v
