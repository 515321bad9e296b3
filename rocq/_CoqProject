-Q theories Verif
theories/Util.v
theories/LatticeSpec.v
theories/NumVectModel.v
theories/NumVectProofs.v
theories/MatrixModel.v
theories/MatrixProofs.v
theories/GsoModel.v
theories/GsoProofs.v
theories/GsoHistory.v
theories/RotateSpec.v
theories/PropGso.v
theories/QcUtil.v
theories/GsoFModel.v
theories/GsoFSpec.v
theories/GsoFProofs.v
theories/GsoQ.v
theories/PropGsoF.v
theories/GramModel.v
theories/GramProofs.v
theories/PropGram.v
theories/GsoRowsModel.v
theories/GsoRowsProofs.v
theories/PropGsoRows.v
theories/GsoWeak.v
theories/LllModel.v
theories/LllProofs.v
theories/LllQ.v
theories/PropLll.v
theories/QGs.v
theories/LllExact.v
theories/LllSpec.v
theories/LllSpecFacts.v
theories/LllDecide.v
theories/PropLllExact.v
theories/WrapperModel.v
theories/WrapperProofs.v
theories/WrapperCalls.v
theories/PropWrapper.v
theories/EnumModel.v
theories/EnumPure.v
theories/EnumRefine.v
theories/EnumIter.v
theories/EnumTop.v
theories/EnumExact.v
theories/EnumTree.v
theories/EnumSpec.v
theories/EvalModel.v
theories/EvalProofs.v
theories/PropEval.v
theories/EnumLink.v
theories/EnumNorm.v
theories/EnumCall.v
theories/PropEnum.v
theories/EnumReset.v
theories/EnumResetProofs.v
theories/CvpModel.v
theories/CvpProofs.v
theories/PropCvp.v
theories/BkzModel.v
theories/BkzProofs.v
theories/PropBkz.v
theories/BkzLoop.v
theories/PropBkzLoop.v
theories/PoolModel.v
theories/PropPool.v
theories/ParEnumModel.v
theories/ParEnumProofs.v
theories/ParEnumFresh.v
theories/PropParEnum.v
theories/PropSub.v
theories/HouseModel.v
theories/HouseProofs.v
theories/MpfrModel.v
theories/PropHlll.v
theories/MatStore.v
theories/PropMatrix.v
theories/IoModel.v
theories/IoProofs.v
theories/PropIo.v
theories/GenModel.v
theories/GenProofs.v
theories/PropGen.v
theories/PropConvert.v
theories/DblModel.v
theories/DblProofs.v
theories/PropDbl.v
theories/SvpModel.v
theories/SvpProofs.v
theories/PropSvp.v
theories/CliModel.v
theories/PropCli.v
theories/PrunerModel.v
theories/PropPruner.v
theories/PruneVolModel.v
theories/PruneVolProofs.v
theories/PropPruneVol.v
theories/PruneCostModel.v
theories/PropPruneCost.v
theories/PropPruneShape.v
theories/HlllCheckModel.v
theories/HouseReal.v
theories/HouseRun.v
theories/HlllRun.v
theories/HlllSpec.v
theories/HlllSpecFacts.v
theories/NaiveReal.v
theories/PropHlllExact.v
theories/PropHlllCheck.v
theories/StratModel.v
theories/PropStrat.v
theories/BkzTourModel.v
theories/PropBkzTour.v
theories/ShapeModel.v
theories/PropShape.v
theories/OptModel.v
theories/OptProofs.v
theories/PropOpt.v
theories/PropOptMain.v
theories/PropOptCases.v
theories/ProbDblModel.v
theories/ProbDblProofs.v
theories/PropProbDbl.v
theories/GramDet.v
theories/LatPot.v
theories/LllTotal.v
theories/LllLimitModel.v
theories/PropLllLimit.v
theories/PropLllTotal.v
theories/LllKeep.v
theories/BkzExactModel.v
theories/BkzSpec.v
theories/LatProj.v
theories/BlockAct.v
theories/BkzExact.v
theories/BkzHkz.v
theories/BkzTotal.v
theories/PropBkzExact.v
theories/TopModel.v
theories/TopProofs.v
theories/PropTop.v
theories/ZnrModel.v
theories/PropZnr.v
theories/CanonModel.v
theories/PropCanon.v
theories/ErrModel.v
theories/PropErr.v
theories/ExtModel.v
theories/PropExt.v
theories/PrecModel.v
theories/PropPrec.v
theories/BkzDualModel.v
theories/EnumDual.v
theories/BkzDualSpec.v
theories/DualLat.v
theories/BkzDual.v
theories/PropBkzDual.v
theories/BkzSlideModel.v
theories/LatBlock.v
theories/BkzSlideSpec.v
theories/BkzSlide.v
theories/PropBkzSlide.v
theories/HlllBridge.v
theories/HlllTotal.v
theories/PropHlllTotal.v
theories/CmdModel.v
theories/CmdSpec.v
theories/CmdProofs.v
theories/PropCmd.v
theories/EntryModel.v
theories/PropEntry.v
theories/LatGenModel.v
theories/PropLatGen.v
theories/FactTable.v
theories/PruneTabModel.v
theories/PropPruneTab.v
theories/GsoTransformModel.v
theories/PropGsoTransform.v
theories/BallTable.v
theories/BallModel.v
theories/PropBall.v
theories/GsoReadModel.v
theories/PropGsoRead.v
theories/LlldiffModel.v
theories/PropLlldiff.v
theories/SetZModel.v
theories/PropSetZ.v
theories/ThreadsModel.v
theories/PropThreads.v
theories/DumpModel.v
theories/JsonSpec.v
theories/PropDump.v
theories/RandModel.v
theories/PropRand.v
theories/MulModel.v
theories/PropMul.v
theories/RowExpoModel.v
theories/PropRowExpo.v
