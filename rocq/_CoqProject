-Q theories Verif
theories/Spec.v
theories/NumPy.v
theories/LinAlg.v
theories/MatAlg.v
theories/TupleModel.v
theories/OpsModel.v
theories/DdtModel.v
theories/PreModel.v
theories/SpecPre.v
theories/BlockAlg.v
theories/PreProofs.v
theories/PreLocs.v
theories/PreFit.v
theories/PreStats.v
theories/PreHeap.v
theories/SpecHeap.v
theories/PreHeapProofs.v
theories/PreFinal.v
theories/EckartYoung.v
theories/LinSys.v
theories/BasisModel.v
theories/SpecExt.v
theories/EntriesModel.v
theories/ParamModel.v
theories/SolverModel.v
theories/SpecLstsq.v
theories/SpecBasis.v
theories/BasisProofs.v
theories/SpecOps.v
theories/TupleLemmas.v
theories/TupleProofs.v
theories/NewtonProofs.v
theories/TupleFinal.v
theories/OpsProofs.v
theories/JacProofs.v
theories/GalProofs.v
theories/VerifyModel.v
theories/HdfModel.v
theories/MonoModel.v
theories/ParaModel.v
theories/SaveModel.v
theories/EqModel.v
theories/SpecObj.v
theories/SpecParam.v
theories/SpecMono.v
theories/SpecReq.v
theories/SpecSave.v
theories/SpecEq.v
theories/SpecVerify.v
theories/VerifyProofs.v
theories/PodRank.v
theories/PodFinal.v
theories/PodHist.v
theories/HdfProofs.v
theories/SaveFile.v
theories/SaveTf.v
theories/EntriesProofs.v
theories/AffProofs.v
theories/InterpProofs.v
theories/EqProofs.v
theories/EqBasis.v
theories/VerifyTf.v
theories/BasisMultiProofs.v
theories/VerifyBasis.v
theories/VerifyUser.v
theories/VerifyTf2.v
theories/VerifyRej.v
theories/MonoLists.v
theories/MonoVals.v
theories/LsqCore.v
theories/SolverProofs.v
theories/SolverTik.v
theories/SolverResid.v
theories/SolverSvd.v
theories/SolverTls.v
theories/SolverReg.v
theories/SolverCond.v
theories/MonoSolver.v
theories/MonoInv.v
theories/MonoFit.v
theories/MonoHist.v
theories/MonoRhs.v
theories/MonoPredict.v
theories/MonoEq.v
theories/SaveBasis.v
theories/SaveOps.v
theories/VerifyOpModel.v
theories/SpecVerifyOp.v
theories/VerifyOpProofs.v
theories/VerifyOpLib.v
theories/VerifyOpRest.v
theories/VerifyOpFd.v
theories/VerifyOpMore.v
theories/SaveSolver.v
theories/VerifyLsModel.v
theories/SpecVerifyLs.v
theories/VerifyLsProofs.v
theories/VerifyLsMore.v
theories/MonoFinal.v
theories/MonoEx.v
theories/MonoStmts.v
theories/ReqSolver.v
theories/ReqPre.v
theories/ReqCalls.v
theories/ReqEx.v
theories/VerifyLsEx.v
theories/SpecLift.v
theories/LiftModel.v
theories/LiftProofs.v
theories/LiftDeriv.v
theories/SpecDdt.v
theories/DdtProofs.v
theories/VerifyLiftModel.v
theories/SpecVerifyLift.v
theories/VerifyLiftProofs.v
theories/VerifyLiftMore.v
theories/TimerModel.v
theories/SpecTimer.v
theories/TimerProofs.v
theories/TimerFinal.v
theories/RomModel.v
theories/SpecRom.v
theories/ReprojModel.v
theories/SpecReproj.v
theories/SpecPost.v
theories/SpecGrid.v
theories/GridModel.v
theories/PostModel.v
theories/RegselModel.v
theories/SpecRegsel.v
theories/SpecReg.v
theories/PolyOpModel.v
theories/GenModel.v
theories/SpecGen.v
theories/PGenModel.v
theories/PGenLib.v
theories/SpecPGen.v
theories/SpecRecover.v
theories/SpecPara.v
theories/ObjModel.v
theories/SpecAnyObj.v
theories/PObjModel.v
theories/SpecPObj.v
theories/OdeModel.v
theories/SpecOde.v
theories/NamedModel.v
theories/SpecNamed.v
theories/ItpModel.v
theories/SpecItp.v
theories/SpecItem.v
theories/DdtInterp.v
theories/SpecDdtItp.v
theories/BayesModel.v
theories/SpecBayes.v
theories/AnyRomModel.v
theories/SpecAnyRom.v
theories/SolverSet.v
theories/SolveEx.v
theories/ParaVals.v
theories/ParaInv.v
theories/SaveMono.v
theories/SavePost.v
theories/RomParts.v
theories/RomProofs.v
theories/RomLift.v
theories/RomFit.v
theories/RomRun.v
theories/RomEx.v
theories/RomCut.v
theories/ReprojProofs.v
theories/ReprojFit.v
theories/ReprojFinal.v
theories/GridProofs.v
theories/GridFinal.v
theories/RegselCore.v
theories/RegselUpdate.v
theories/PostNorm.v
theories/PostProofs.v
theories/PostFinal.v
theories/RegselCases.v
theories/RegselDiscrete.v
theories/RegselContinuous.v
theories/RegselEx.v
theories/RecoverReg.v
theories/RecoverMono.v
theories/PolyOpProofs.v
theories/GenProofs.v
theories/GenMain.v
theories/PGenFlat.v
theories/PGenProofs.v
theories/PGenMain.v
theories/RecoverGen.v
theories/Prop_VerifySolvers.v
theories/Prop_VerifyOps.v
theories/Prop_VerifyLift.v
theories/Prop_Verify.v
theories/Prop_Tuples.v
theories/Prop_Timer.v
theories/ParaOps.v
theories/ParaFit.v
theories/ParaBest.v
theories/ParaFinal.v
theories/ParaEval.v
theories/ParaInterp.v
theories/ParaEx.v
theories/Prop_Save.v
theories/Prop_Rom.v
theories/Prop_Requires.v
theories/Prop_Reproj.v
theories/Prop_Regsel.v
theories/Prop_Reg.v
theories/GenClasses.v
theories/PGenClasses.v
theories/Prop_Lstsq.v
theories/Prop_Gen.v
theories/PGenFresh.v
theories/PGenForget.v
theories/Prop_PGen.v
theories/Prop_Recover.v
theories/Prop_Pre.v
theories/Prop_Post.v
theories/Prop_Param.v
theories/ParaPairs.v
theories/Prop_Para.v
theories/ObjEq.v
theories/ObjProofs.v
theories/ObjMain.v
theories/ObjLib.v
theories/PObjProofs.v
theories/PObjLib.v
theories/PObjLib2.v
theories/ObjRestart.v
theories/PObjRestart.v
theories/Prop_PObj.v
theories/Prop_Ops.v
theories/OdeUnique.v
theories/OdeProofs.v
theories/OdeEx.v
theories/Prop_Ode.v
theories/Prop_Obj.v
theories/NamedProofs.v
theories/NamedStr.v
theories/NamedDegree.v
theories/Prop_Named.v
theories/Prop_Models.v
theories/Prop_Lift.v
theories/ItpProofs.v
theories/ItpFinal.v
theories/ItpModels.v
theories/Prop_Itp.v
theories/BasisNames.v
theories/ItemModel.v
theories/ItemProofs.v
theories/PreFitVars.v
theories/Prop_Item.v
theories/Prop_Grid.v
theories/EqItp.v
theories/Prop_Eq.v
theories/DdtItpProofs.v
theories/DdtVerify.v
theories/DdtItpFinal.v
theories/Prop_DdtItp.v
theories/Prop_Ddt.v
theories/BayesProofs.v
theories/BayesRom.v
theories/BayesSelect.v
theories/BayesDiscrete.v
theories/BayesEx.v
theories/Prop_Bayes.v
theories/PodError.v
theories/PodSnap.v
theories/PodFn.v
theories/Prop_Basis.v
theories/AnyRomProofs.v
theories/AnyRomFit.v
theories/AnyRomLib.v
theories/AnyRomStmts.v
theories/Prop_AnyRom.v
