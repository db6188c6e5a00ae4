-Q theories Verif
theories/Base.v
theories/MMSpec.v
theories/VerModel.v
theories/VerSpec.v
theories/VerMatch.v
theories/VerStep.v
theories/VerProofs.v
theories/VerExample.v
theories/VerProps.v
theories/TokModel.v
theories/ParModel.v
theories/ParSpec.v
theories/ParProofs.v
theories/ParCompr.v
theories/ParTotal.v
theories/CmpModel.v
theories/CmpCodec.v
theories/CmpSpec.v
theories/CmpProofs.v
theories/CmpRound.v
theories/ParText.v
theories/ParSafe.v
theories/ParExample.v
theories/ParWit.v
theories/ParProps.v
theories/SqModel.v
theories/SqSpec.v
theories/SqProofs.v
theories/SqPack.v
theories/SqValid.v
theories/SqAttr.v
theories/SqGood.v
theories/SqProps.v
theories/SqMax.v
theories/SqMaxProps.v
theories/VstrModel.v
theories/VstrSpec.v
theories/VstrProofs.v
theories/VstrEdit.v
theories/VstrProps.v
theories/LabModel.v
theories/LabSpec.v
theories/LabProofs.v
theories/MatchModel.v
theories/MatchSpec.v
theories/MatchProofs.v
theories/MatchProps.v
theories/TokSpec.v
theories/TokProofs.v
theories/TokProps.v
theories/SrcModel.v
theories/SrcSpec.v
theories/SrcProofs.v
theories/SrcQuiet.v
theories/SrcRaw.v
theories/SrcFinal.v
theories/SrcProps.v
theories/StmModel.v
theories/StmSpec.v
theories/StmTab.v
theories/StmScope.v
theories/StmLook.v
theories/StmFlags.v
theories/StmBlock.v
theories/StmDecl.v
theories/StmHyp.v
theories/StmAsrt.v
theories/StmCheck.v
theories/StmMain.v
theories/StmProps.v
theories/BigModel.v
theories/BigSpec.v
theories/BigProofs.v
theories/BigProps.v
theories/NmbModel.v
theories/NmbSpec.v
theories/NmbProofs.v
theories/NmbSet.v
theories/NmbProps.v
theories/UndoModel.v
theories/UndoSpec.v
theories/UndoProofs.v
theories/UndoProps.v
theories/CmdModel.v
theories/CmdSpec.v
theories/CmdProofs.v
theories/CmdProps.v
theories/FatlModel.v
theories/FatlSpec.v
theories/FatlProofs.v
theories/FatlProps.v
theories/PoolModel.v
theories/PoolSpec.v
theories/PoolProofs.v
theories/PoolLet.v
theories/PoolMach.v
theories/PoolProps.v
theories/SafeModel.v
theories/SafeSpec.v
theories/SafeProofs.v
theories/SafeProps.v
theories/DateModel.v
theories/DateSpec.v
theories/DateProofs.v
theories/DateProps.v
theories/OrdModel.v
theories/OrdSpec.v
theories/OrdKnap.v
theories/OrdLens.v
theories/OrdFill.v
theories/OrdProofs.v
theories/OrdBest.v
theories/OrdCmp.v
theories/OrdProps.v
theories/TrcModel.v
theories/TrcSpec.v
theories/TrcProofs.v
theories/TrcWork.v
theories/TrcText.v
theories/TrcProps.v
theories/LineModel.v
theories/LineSpec.v
theories/LineProofs.v
theories/LineText.v
theories/SavModel.v
theories/LineCmp.v
theories/SavProofs.v
theories/LineProps.v
theories/PfaModel.v
theories/PfaSpec.v
theories/PfaProofs.v
theories/PfaMore.v
theories/PfaFloat.v
theories/PfaAssign.v
theories/PfaExpand.v
theories/PfaValid.v
theories/PfaExpAll.v
theories/PfaHist.v
theories/PfaProps.v
theories/UniModel.v
theories/UniSpec.v
theories/UniSub.v
theories/UniCore.v
theories/UniStep.v
theories/UniRun.v
theories/UniProofs.v
theories/UniFilter.v
theories/UniMatch.v
theories/UniAll.v
theories/UniFin.v
theories/UniOnce.v
theories/UniTwice.v
theories/UniProps.v
theories/ReadModel.v
theories/ReadSpec.v
theories/ReadOut.v
theories/ReadWf.v
theories/ReadTok.v
theories/ReadSec.v
theories/ReadWords.v
theories/ReadMain.v
theories/ReadSize.v
theories/ReadExample.v
theories/ReadProps.v
theories/TidySpec.v
theories/TidyRaw.v
theories/TidyFile.v
theories/TidyMain.v
theories/TidyProps.v
theories/CheckSpec.v
theories/CheckTok.v
theories/CheckPar.v
theories/CheckCmp.v
theories/CheckCmpTok.v
theories/CheckMain.v
theories/CheckBack.v
theories/CheckParBack.v
theories/CheckConv.v
theories/CheckFinal.v
theories/CheckEx.v
theories/CheckProps.v
theories/NrmModel.v
theories/NrmSpec.v
theories/NrmProofs.v
theories/NrmParse.v
theories/NrmText.v
theories/NrmProps.v
theories/IncModel.v
theories/IncSpec.v
theories/IncProofs.v
theories/IncLoop.v
theories/IncRun.v
theories/IncMain.v
theories/IncTerm.v
theories/IncProps.v
theories/HenModel.v
theories/HenProofs.v
theories/HenMore.v
theories/HenProps.v
theories/FltModel.v
theories/FltSpec.v
theories/FltProofs.v
theories/FltMain.v
theories/FltVal.v
theories/FltProps.v
theories/RepModel.v
theories/RepSpec.v
theories/RepProofs.v
theories/RepMain.v
theories/RepProps.v
theories/AkModel.v
theories/AkSpec.v
theories/AkProofs.v
theories/AkMain.v
theories/AkTop.v
theories/AkProps.v
theories/MinModel.v
theories/MinSpec.v
theories/MinProofs.v
theories/MinMain.v
theories/MinProps.v
theories/ExpModel.v
theories/ExpSpec.v
theories/ExpProofs.v
theories/ExpMove.v
theories/ExpBuild.v
theories/ExpMain.v
theories/ExpText.v
theories/ExpProps.v
theories/SxpModel.v
theories/SxpSpec.v
theories/SxpProofs.v
theories/SxpMean.v
theories/SxpText.v
theories/SxpMain.v
theories/SxpProps.v
theories/ExsBuild.v
theories/ExsMain.v
theories/RvxModel.v
theories/RvxProofs.v
theories/RvxProps.v
theories/MwModel.v
theories/MwSpec.v
theories/MwTree.v
theories/MwFlags.v
theories/MwProofs.v
theories/MwMain.v
theories/MwDisj.v
theories/MwVal.v
theories/MwRead.v
theories/MwEnd.v
theories/MwProps.v
theories/AuModel.v
theories/AuSpec.v
theories/AuProofs.v
theories/AuMain.v
theories/AuCmd.v
theories/AuTop.v
theories/AuAll.v
theories/AuInit.v
theories/AuSess.v
theories/AuProps.v
theories/LetModel.v
theories/LetSpec.v
theories/LetProofs.v
theories/LetMain.v
theories/LetProps.v
theories/ImpModel.v
theories/ImpSpec.v
theories/ImpProofs.v
theories/ImpMain.v
theories/ImpProps.v
theories/SesSpec.v
theories/SesProofs.v
theories/SesProps.v
theories/ArgModel.v
theories/ArgSpec.v
theories/ArgProofs.v
theories/ArgStr.v
theories/ArgStmt.v
theories/ArgMain.v
theories/ArgProps.v
theories/MbxModel.v
theories/MbxSpec.v
theories/MbxProofs.v
theories/MbxProps.v
