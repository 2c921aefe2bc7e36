-Q theories Verif
theories/Value.v
theories/FacModel.v
theories/NumSpec.v
theories/FacSieve.v
theories/FacProofs.v
theories/NumModel.v
theories/NumProofs.v
theories/NumArith.v
theories/NumMore.v
theories/NumTree.v
theories/NumCplx.v
theories/NumLimit.v
theories/QuoRemHeap.v
theories/QuoRemProofs.v
theories/P_Num.v
theories/ArrModel.v
theories/ArrSpec.v
theories/ArrBase.v
theories/ArrRot.v
theories/ArrTake.v
theories/ArrTransp.v
theories/ArrCat.v
theories/ArrSel.v
theories/ArrPart.v
theories/ArrMix.v
theories/ArrLaws.v
theories/P_Arr.v
theories/EvalModel.v
theories/EvalSpec.v
theories/EvalProofs.v
theories/EvalReduce.v
theories/EvalAssoc.v
theories/P_Eval.v
theories/ParModel.v
theories/ParSpec.v
theories/ParProofs.v
theories/ParLoops.v
theories/P_Par.v
theories/IdxModel.v
theories/IdxSpec.v
theories/IdxProofs.v
theories/IdxOps.v
theories/IdxAssign.v
theories/IdxErr.v
theories/OrdModel.v
theories/OrdSpec.v
theories/OrdProofs.v
theories/OrdOps.v
theories/OrdMat.v
theories/P_Set.v
theories/PersistModel.v
theories/PersistTree.v
theories/PersistOps.v
theories/PersistEdit.v
theories/PersistSpec.v
theories/PersistWorld.v
theories/PersistConcModel.v
theories/PersistConcSpec.v
theories/PersistConc.v
theories/PersistConcRun.v
theories/PersistConcTerm.v
theories/P_Conc.v
theories/P_Persist.v
theories/P_Idx.v
theories/EncModel.v
theories/EncSpec.v
theories/EncProofs.v
theories/EncOps.v
theories/EncDec.v
theories/EncPar.v
theories/P_Enc.v
theories/Syntax.v
theories/ExecModel.v
theories/ExecSpec.v
theories/ExecProofs.v
theories/ExecMono.v
theories/ExecFresh.v
theories/ExecTrans.v
theories/ExecHist.v
theories/ExecBody.v
theories/P_Exec.v
theories/ParseModel.v
theories/ParseSpec.v
theories/ParseProofs.v
theories/ParseComplete.v
theories/ParsePrint.v
theories/ParseVars.v
theories/ParseDefn.v
theories/ParseMore.v
theories/P_Parse.v
theories/VarModel.v
theories/VarSpec.v
theories/VarIdx.v
theories/VarProofs.v
theories/P_Var.v
theories/InvModel.v
theories/InvSpec.v
theories/InvProofs.v
theories/InvMat.v
theories/InvInner.v
theories/InvVec.v
theories/InvDiv.v
theories/P_Inv.v
theories/FloatModel.v
theories/FloatProofs.v
theories/FloatSqrt.v
theories/FloatReduce.v
theories/FloatOdd.v
theories/LogModel.v
theories/LogProofs.v
theories/P_Float.v
theories/ScanModel.v
theories/ScanSpec.v
theories/ScanProofs.v
theories/ScanLex.v
theories/ScanNext.v
theories/ScanLine.v
theories/ScanForm.v
theories/ScanEnd.v
theories/P_Scan.v
theories/TextModel.v
theories/TextSpec.v
theories/TextProofs.v
theories/TextScan.v
theories/TextNum.v
theories/P_Text.v
theories/StrModel.v
theories/StrSpec.v
theories/StrProofs.v
theories/P_Str.v
theories/ReadModel.v
theories/ReadScan.v
theories/ScanName.v
theories/SaveModel.v
theories/SaveSpec.v
theories/SaveProofs.v
theories/SaveRun.v
theories/P_Save.v
theories/SourceModel.v
theories/SourceSpec.v
theories/SourceScan.v
theories/SourceProofs.v
theories/SourceMove.v
theories/SourceDefn.v
theories/SourceSave.v
theories/SourceFile.v
theories/SourceWork.v
theories/SourceTest.v
theories/CmdModel.v
theories/CmdSpec.v
theories/CmdProofs.v
theories/CmdRun.v
theories/CmdSave.v
theories/CmdReject.v
theories/P_Cmd.v
theories/AliasModel.v
theories/AliasSpec.v
theories/AliasProofs.v
theories/AliasRest.v
theories/P_Alias.v
theories/CrashSpec.v
theories/CrashBase.v
theories/CrashArr.v
theories/CrashArr2.v
theories/CrashEval.v
theories/CrashOrd.v
theories/CrashExpr.v
theories/P_Crash.v
theories/SourceUse.v
theories/P_Source.v
theories/RandModel.v
theories/RandSpec.v
theories/FloatMono.v
theories/RandProofs.v
theories/P_Rand.v
theories/ShowModel.v
theories/ShowSpec.v
theories/ShowProofs.v
theories/ShowGrid.v
theories/ShowVals.v
theories/ShowRect.v
theories/ShowTotal.v
theories/ShowMore.v
theories/P_Show.v
theories/TimeModel.v
theories/TimeSpec.v
theories/TimeProofs.v
theories/FloatSign.v
theories/TimeTrip.v
theories/P_Time.v
theories/MixModel.v
theories/MixSpec.v
theories/MixProofs.v
theories/P_Mix.v
theories/FmtModel.v
theories/FmtSpec.v
theories/FmtProofs.v
theories/FmtText.v
theories/P_Fmt.v
theories/CplxModel.v
theories/CplxSpec.v
theories/CplxProofs.v
theories/CplxPow.v
theories/P_Cplx.v
theories/PhaseModel.v
theories/PhaseSpec.v
theories/PhaseProofs.v
theories/P_Phase.v
theories/FTextModel.v
theories/FTextSpec.v
theories/FTextProofs.v
theories/FTextDigits.v
theories/FTextShow.v
theories/P_FText.v
theories/EFmtModel.v
theories/EFmtSpec.v
theories/EFmtProofs.v
theories/EFmtRat.v
theories/EFmtShow.v
theories/P_EFmt.v
theories/DemoModel.v
theories/DemoSpec.v
theories/DemoProofs.v
theories/ScanMore.v
theories/CmdMore.v
theories/MobileModel.v
theories/MobileSpec.v
theories/MobileProofs.v
theories/P_Demo.v
theories/P_Mobile.v
theories/OutModel.v
theories/OutSpec.v
theories/OutProofs.v
theories/P_Out.v
theories/ArcModel.v
theories/ArcSpec.v
theories/ArcRound.v
theories/ArcProofs.v
theories/SqrtConv.v
theories/LogConv.v
theories/HypProofs.v
theories/P_Arc.v
theories/ExpModel.v
theories/ExpProofs.v
theories/P_Exp.v
theories/PowModel.v
theories/PowProofs.v
theories/P_Pow.v
theories/SqrtExact.v
theories/P_SqrtExact.v
theories/SqrtAbove.v
theories/CSqrtModel.v
theories/CSqrtProofs.v
theories/P_CSqrt.v
theories/SeriesSpec.v
theories/SeriesAcc.v
theories/ExpAcc.v
theories/P_ExpAcc.v
theories/AltAcc.v
theories/AltInst.v
theories/SinTotal.v
theories/P_Trig.v
theories/LogSpec.v
theories/LogAcc.v
theories/P_LogAcc.v
