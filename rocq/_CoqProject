-Q theories Verif
theories/Prelude.v
theories/APALMData.v
theories/APALMDataProofs.v
theories/APALMDataInv.v
theories/APALMSpec.v
theories/APALMHist.v
theories/APALMDataEx.v
theories/Props_APALMData.v
theories/APALMDriver.v
theories/APALMSched.v
theories/APALMExec.v
theories/APALMOrder.v
theories/APALMOrderExec.v
theories/APALMExecLemmas.v
theories/Props_APALMDriver.v
theories/Props_APALMSerial.v
theories/Status.v
theories/RunTac.v
theories/APALMWorker.v
theories/APALMWorkerProofs.v
theories/Props_APALMWorker.v
theories/VS.v
theories/ALMBase.v
theories/ALMBaseProofs.v
theories/ALMStep.v
theories/ALMLog.v
theories/ALMPoints.v
theories/ALMRun.v
theories/ALMVerbose.v
theories/Props_ALMStep.v
theories/Props_ALMMethods.v
theories/Props_ALMStab.v
theories/ALMSingular.v
theories/Props_ALMSingular.v
theories/Props_ALMExtended.v
theories/Props_ALMBisect.v
theories/Props_ALMBisect2.v
theories/APALMSolver.v
theories/Props_APALMSolver.v
theories/Props_APALMOrder.v
theories/Props_APALMOrder2.v
theories/ALMRestart.v
theories/Props_ALMRestart.v
theories/Props_APALMLength.v
theories/Props_ALMPredict.v
theories/Static.v
theories/StaticRun.v
theories/Props_Static.v
theories/Props_Static2.v
theories/Props_Static3.v
theories/Props_Static4.v
theories/StaticMore.v
theories/Props_Static5.v
theories/Props_Static6.v
theories/Props_Static7.v
theories/StaticLoop.v
theories/Props_StaticLoop.v
theories/Props_StaticLoop2.v
theories/StaticProg.v
theories/Props_StaticProg.v
theories/NewtonConv.v
theories/Props_Dynamic11.v
theories/DynLoop.v
theories/Props_DynLoop.v
theories/Props_ALMConverge.v
theories/Props_ALMConverge2.v
theories/ALMLoop.v
theories/Props_ALMLoop.v
theories/Props_ALMLoop2.v
theories/ALMLoop2.v
theories/Props_ALMLoop3.v
theories/ALMLoop4.v
theories/Props_ALMLoop4.v
theories/StaticLoop3.v
theories/Props_StaticLoop3.v
theories/StaticLoop4.v
theories/Props_StaticLoop4.v
theories/ALMLoop5.v
theories/Props_ALMLoop5.v
theories/ALMLoop6.v
theories/Props_ALMLoop6.v
theories/ALMLoop7.v
theories/Props_ALMLoop7.v
theories/ALMLoop8.v
theories/Props_ALMLoop8.v
theories/Props_ALMBisect3.v
theories/Dynamic.v
theories/DynRun.v
theories/Props_Dynamic.v
theories/Props_Dynamic2.v
theories/Props_Dynamic3.v
theories/Props_Dynamic4.v
theories/Props_Dynamic5.v
theories/Props_Dynamic6.v
theories/Props_Dynamic7.v
theories/Props_Dynamic8.v
theories/Props_Dynamic9.v
theories/Props_Dynamic10.v
theories/XBraid.v
theories/Props_XBraid.v
theories/Eigen.v
theories/Props_Eigen.v
theories/Props_Eigen2.v
theories/EigenProg.v
theories/Props_EigenProg.v
theories/Tools.v
theories/Props_Tools.v
theories/Fitter.v
theories/FitterProofs.v
theories/Props_Fitter.v
theories/MPI.v
theories/MPINet.v
theories/MPIPhase.v
theories/Props_MPI.v
theories/MPIMain.v
theories/MPINetN.v
theories/MPIMainProofs.v
theories/Props_MPIMain.v
theories/Adapt.v
theories/Props_Adapt.v
theories/PreLoop.v
theories/Props_PreLoop.v
