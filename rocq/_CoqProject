-Q theories Verif
theories/Base.v
theories/UtilModel.v
theories/UtilSpec.v
theories/UtilProofs.v
theories/UtilProps.v
theories/ListModel.v
theories/ListSpec.v
theories/ListProofs.v
theories/ListRefine.v
theories/ListProps.v
theories/KvModel.v
theories/KvSpec.v
theories/KvProofs.v
theories/KvRefine.v
theories/KvFlush.v
theories/KvStep.v
theories/KvStep2.v
theories/KvRun.v
theories/KvKeep.v
theories/KvStill.v
theories/KvFacts.v
theories/KvProps.v
theories/HtModel.v
theories/HtProofs.v
theories/SetModel.v
theories/SetSpec.v
theories/SetProofs.v
theories/SetRefine.v
theories/SetTotal.v
theories/SetProps.v
theories/MapModel.v
theories/MapSpec.v
theories/MapProofs.v
theories/MapRefine.v
theories/MapTotal.v
theories/MapProps.v
theories/BtModel.v
theories/BtSpec.v
theories/BtOrder.v
theories/BtLevel.v
theories/BtFind.v
theories/BtSplit.v
theories/BtMerge.v
theories/BtMerge2.v
theories/BtWalk.v
theories/BtGet.v
theories/BtGet2.v
theories/BtOps.v
theories/BtKeys.v
theories/BtIns.v
theories/BtRefine.v
theories/BtRun.v
theories/BtRun2.v
theories/BtProps.v
theories/SmgetModel.v
theories/SmgetSpec.v
theories/SmgetScan.v
theories/SmgetList.v
theories/SmgetMerge.v
theories/SmgetKeys.v
theories/SmgetSort.v
theories/SmgetProofs.v
theories/SmgetProps.v
theories/AssocModel.v
theories/AssocSpec.v
theories/AssocRev.v
theories/AssocProofs.v
theories/AssocScan.v
theories/AssocRun.v
theories/AssocHist.v
theories/AssocDirect.v
theories/AssocCmd.v
theories/AssocProps.v
theories/PfxModel.v
theories/PfxSpec.v
theories/PfxProofs.v
theories/PfxRun.v
theories/PfxHist.v
theories/PfxAll.v
theories/PfxView.v
theories/PfxScan.v
theories/PfxProps.v
theories/RecModel.v
theories/RecSpec.v
theories/RecProofs.v
theories/RecProps.v
theories/RcvModel.v
theories/RcvSpec.v
theories/RcvProofs.v
theories/RcvProps.v
theories/CkModel.v
theories/CkSpec.v
theories/CkProofs.v
theories/CkProps.v
theories/LbModel.v
theories/LbSpec.v
theories/LbProofs.v
theories/LbInv.v
theories/LbLive.v
theories/LbProps.v
theories/SyModel.v
theories/SySpec.v
theories/SyProofs.v
theories/SyProps.v
theories/TokModel.v
theories/TokSpec.v
theories/TokProofs.v
theories/TokBlkProofs.v
theories/TokLoopProofs.v
theories/TokPassProofs.v
theories/TokProps.v
theories/SlbModel.v
theories/SlbCls.v
theories/SlbSum.v
theories/SlbList.v
theories/SlbBlk.v
theories/SlbOps.v
theories/SlbChunk.v
theories/SlbInv.v
theories/SlbStep.v
theories/SlbSpec.v
theories/SlbRun.v
theories/SlbLay.v
theories/SlbLim.v
theories/SlbProps.v
theories/RpModel.v
theories/RpSpec.v
theories/RpBody.v
theories/RpBody2.v
theories/RpDel.v
theories/RpAct.v
theories/RpScan.v
theories/RpSys.v
theories/RpProps.v
theories/CnModel.v
theories/CnSpec.v
theories/CnProofs.v
theories/CnInv.v
theories/CnPipe.v
theories/CnProps.v
theories/KtModel.v
theories/KtSpec.v
theories/KtProofs.v
theories/KtRing.v
theories/KtInv.v
theories/KtReach.v
theories/KtProps.v
theories/ArgTypes.v
theories/ArgModel.v
theories/ArgSpec.v
theories/ArgProofs.v
theories/ArgFilter.v
theories/ArgCmd.v
theories/ArgBop.v
theories/ArgBop2.v
theories/ArgSound.v
theories/ArgComplete.v
theories/ArgComplete2.v
theories/ArgSafe.v
theories/ArgProps.v
theories/AtModel.v
theories/AtSpec.v
theories/AtProofs.v
theories/AtProofs2.v
theories/AtProofs3.v
theories/AtProps.v
theories/PsModel.v
theories/PsSpec.v
theories/PsProofs.v
theories/PsProofs2.v
theories/PsProps.v
theories/KlModel.v
theories/KlSpec.v
theories/KlProofs.v
theories/KlRun.v
theories/KlProps.v
theories/ClModel.v
theories/ClSpec.v
theories/ClProofs.v
theories/ClRun.v
theories/ClProps.v
theories/ClStuck.v
theories/MbModel.v
theories/MbSpec.v
theories/MbProofs.v
theories/MbProps.v
theories/LqModel.v
theories/LqSpec.v
theories/LqProofs.v
theories/LqProps.v
