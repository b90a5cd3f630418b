-Q theories Verif
theories/QueueModel.v
theories/QueueSpec.v
theories/QueueProofs.v
theories/QueueHistory.v
theories/QueueLemmas.v
theories/QueueExact.v
theories/QueueProps.v
theories/GroupModel.v
theories/GroupSpec.v
theories/GroupProofs.v
theories/GroupLemmas.v
theories/GroupServe.v
theories/GroupProps.v
theories/CodesModel.v
theories/CodesProps.v
theories/FanModel.v
theories/FanSpec.v
theories/FanProofs.v
theories/FanProps.v
theories/FanTrack.v
theories/TmModel.v
theories/TmSpec.v
theories/TmMicro.v
theories/TmFacts.v
theories/TmProv.v
theories/TmVotes.v
theories/TmFlow.v
theories/TmStable.v
theories/TmCount.v
theories/TmLog.v
theories/TmUnan.v
theories/TmOutcome.v
theories/TmCheck.v
theories/TmProps.v
theories/CtxModel.v
theories/CtxSpec.v
theories/CtxProofs.v
theories/CtxHeld.v
theories/CtxXa.v
theories/CtxMore.v
theories/CtxProps.v
theories/SvcModel.v
theories/SvcSpec.v
theories/SvcLemmas.v
theories/SvcInv.v
theories/SvcStep.v
theories/SvcRes.v
theories/SvcCount.v
theories/SvcDir.v
theories/SvcRoute.v
theories/SvcWake.v
theories/SvcDead.v
theories/SvcCall.v
theories/SvcTop.v
theories/SvcLimit.v
theories/SvcProps.v
theories/IpcModel.v
theories/IpcSpec.v
theories/IpcChunk.v
theories/IpcProj.v
theories/IpcAcct.v
theories/IpcTop.v
theories/IpcMicro.v
theories/IpcOrder.v
theories/IpcProps.v
theories/SendModel.v
theories/SendSpec.v
theories/SendProofs.v
theories/SendTop.v
theories/SendProps.v
theories/Bytes.v
theories/BoModel.v
theories/BoSpec.v
theories/BoProofs.v
theories/BoProps.v
theories/OrdModel.v
theories/OrdSpec.v
theories/OrdProofs.v
theories/OrdProps.v
theories/FieldModel.v
theories/FieldSpec.v
theories/FieldProofs.v
theories/FieldProps.v
theories/TextModel.v
theories/TextSpec.v
theories/TextProofs.v
theories/TextXid.v
theories/TextProps.v
theories/TcpModel.v
theories/TcpSpec.v
theories/TcpProofs.v
theories/TcpProps.v
theories/ArcModel.v
theories/ArcSpec.v
theories/ArcProofs.v
theories/ArcRead.v
theories/ArcProps.v
theories/ProtoModel.v
theories/ProtoDoc.v
theories/ProtoSpec.v
theories/ProtoProofs.v
theories/ProtoProps.v
theories/CallModel.v
theories/CallSpec.v
theories/CallProofs.v
theories/CallMore.v
theories/CallMain.v
theories/CallEnd.v
theories/CallTied.v
theories/CallTx.v
theories/CallXa.v
theories/CallProps.v
theories/ServeModel.v
theories/ServeSpec.v
theories/ServeProofs.v
theories/ServeTx.v
theories/ServeMore.v
theories/ServeEnd.v
theories/ServeProps.v
theories/ConvModel.v
theories/ConvSpec.v
theories/ConvProofs.v
theories/ConvInv.v
theories/ConvShape.v
theories/ConvMove.v
theories/ConvKeep.v
theories/ConvKept.v
theories/ConvAll.v
theories/ConvAct.v
theories/ConvOpen.v
theories/ConvTold.v
theories/ConvReach.v
theories/ConvUse.v
theories/ConvStuck.v
theories/CtxPend.v
theories/ConvTx.v
theories/ConvProps.v
theories/GwoModel.v
theories/GwoSpec.v
theories/GwoProofs.v
theories/GwoInv.v
theories/GwoKeep.v
theories/GwoTight.v
theories/GwoReply.v
theories/GwoWire.v
theories/GwoTold.v
theories/GwoLost.v
theories/GwoClose.v
theories/GwoConsult.v
theories/GwoAdv.v
theories/GwoGone.v
theories/GwoSvc.v
theories/GwoRun.v
theories/GwoProps.v
theories/GwiModel.v
theories/GwiSpec.v
theories/GwiProofs.v
theories/GwiInv.v
theories/GwiFwd.v
theories/GwiOnce.v
theories/GwiKeep.v
theories/GwiPass.v
theories/GwiReply.v
theories/GwiThere.v
theories/GwiCache.v
theories/GwiClose.v
theories/GwiLeave.v
theories/GwiStop.v
theories/GwiRun.v
theories/GwiProps.v
theories/QfwModel.v
theories/QfwSpec.v
theories/QfwProofs.v
theories/QfwInv.v
theories/QfwFlow.v
theories/QfwCount.v
theories/QfwShape.v
theories/QfwStop.v
theories/QfwEnd.v
theories/QfwQuiet.v
theories/QfwLook.v
theories/QfwRef.v
theories/QfwKnow.v
theories/QfwStart.v
theories/QfwRun.v
theories/QfwProps.v
theories/QmgModel.v
theories/QmgSpec.v
theories/QmgProofs.v
theories/QmgEnt.v
theories/QmgQueues.v
theories/QmgOffers.v
theories/QmgLook.v
theories/QmgLook2.v
theories/QmgAnswers.v
theories/QmgTasks.v
theories/QmgConform.v
theories/QmgConform2.v
theories/QmgConform3.v
theories/QmgConform4.v
theories/QmgConform5.v
theories/QmgRun.v
theories/QmgProps.v
theories/DscModel.v
theories/DscSpec.v
theories/DscProofs.v
theories/DscHold.v
theories/DscEnv.v
theories/DscDyn.v
theories/DscOps.v
theories/DscMove.v
theories/DscStep.v
theories/DscGoals.v
theories/DscTimer.v
theories/DscTheorems.v
theories/DscRun.v
theories/DscNet.v
theories/DscProps.v
theories/DomModel.v
theories/DomSpec.v
theories/DomBoot.v
theories/DomFrame.v
theories/DomMarks.v
theories/DomStep.v
theories/DomSeq.v
theories/DomOpen.v
theories/DomTalk.v
theories/DomSing.v
theories/DomScale.v
theories/DomLook.v
theories/DomWhite.v
theories/DomGrew.v
theories/DomProc.v
theories/DomPids.v
theories/DomKeep.v
theories/DomGrand.v
theories/DomRun.v
theories/DomDown.v
theories/DomTold.v
theories/DomAsk.v
theories/DomCount.v
theories/DomErr.v
theories/DomOnly.v
theories/DomFresh.v
theories/DomDeny.v
theories/DomStay.v
theories/DomProps.v
