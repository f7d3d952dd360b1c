-Q theories Verif
theories/Bytes.v
theories/Frame.v
theories/World.v
theories/WebSocket.v
theories/AsyncWebSocket.v
theories/SpecFrame.v
theories/SpecSend.v
theories/SpecListen.v
theories/SpecApi.v
theories/ProofFrame.v
theories/ProofStream.v
theories/ProofSend.v
theories/ProofHeader.v
theories/ProofListen.v
theories/ProofReading.v
theories/ProofApi.v
theories/ProofInv.v
theories/ProofRel.v
theories/SpecCausal.v
theories/ProofCausal.v
theories/PropCausal.v
theories/SpecReply.v
theories/PropReply.v
theories/ProofConfig.v
theories/PropConfig.v
theories/PropPump.v
theories/PropInstall.v
theories/PropDangling.v
theories/PropBound.v
theories/ProofSilent.v
theories/ProofProps.v
theories/ProofCodec.v
theories/PropCodec.v
theories/PropListen.v
theories/ProofHistory.v
theories/PropListen2.v
theories/PropListen3.v
theories/SpecAsync.v
theories/ProofAsync.v
theories/ProofAsync2.v
theories/ProofAsync3.v
theories/PropAsync.v
theories/PropAsync2.v
theories/SpecConfig.v
theories/PropSafe.v
theories/PropAsync3.v
theories/SpecNet.v
theories/PropNet.v
theories/PropNet2.v
theories/SpecDuplex.v
theories/PropDuplex.v
theories/PropDuplex2.v
theories/PropFragment.v
theories/SpecTalk.v
theories/SpecFragment.v
theories/PropTalk.v
theories/Sha1.v
theories/SpecSha1.v
theories/ProofSha1.v
theories/PropSha1.v
theories/Base64.v
theories/SpecBase64.v
theories/ProofBase64.v
theories/Handshake.v
theories/SpecHandshake.v
theories/PropHandshake.v
theories/PropHandshake2.v
theories/PropSession.v
theories/Lifecycle.v
theories/SpecLifecycle.v
theories/PropLifecycle.v
theories/Concurrent.v
theories/SpecConcurrent.v
theories/ProofConcurrent.v
theories/PropConcurrent.v
theories/Server.v
theories/SpecServer.v
theories/ProofServer.v
theories/PropServer.v
theories/PropFail.v
theories/Threads.v
theories/SpecThreads.v
theories/ProofThreads.v
theories/PropThreads.v
theories/ProofThreads2.v
theories/PropThreads2.v
theories/PropThreads3.v
theories/PropInstall2.v
theories/PropAsyncHeader.v
theories/ThreadServer.v
theories/SpecThreadServer.v
theories/ProofThreadServer.v
theories/PropThreadServer.v
theories/PropThreadServer2.v
theories/Process.v
theories/ProofProcess.v
theories/ProofProcess2.v
theories/ProofProcess3.v
theories/SpecProcess.v
theories/ProofProcess4.v
theories/PropProcess.v
theories/PropProcess2.v
theories/Coroutines.v
theories/SpecCoroutines.v
theories/ProofCoroutines.v
theories/ProofCoroutines2.v
theories/ProofCoroutines3.v
theories/ProofCoroutines4.v
theories/PropCoroutines.v
theories/SpecCost.v
theories/PropCost.v
theories/PropMasking.v
theories/PropSilent.v
theories/SpecAccept.v
theories/PropAccept.v
theories/SpecLifetime.v
theories/PropLifetime.v
theories/SpecRace.v
theories/PropRace.v
theories/SpecEndToEnd.v
theories/PropEndToEnd.v
theories/PropConfig2.v
theories/PushServer.v
theories/SpecPushServer.v
theories/ProofPushServer.v
theories/ProofPushServer2.v
theories/PropPushServer.v
theories/PushThreads.v
theories/SpecPushThreads.v
theories/ProofPushThreads.v
theories/PropPushThreads.v
theories/PropPushThreads2.v
theories/PropPushThreads3.v
theories/SpecParallel.v
theories/PropParallel.v
theories/SpecMixed.v
theories/ProofQuit.v
theories/PropMixed.v
theories/Upgrade.v
theories/SpecUpgrade.v
theories/PropUpgrade.v
theories/Ownership.v
theories/SpecOwnership.v
theories/PropOwnership.v
theories/SpecField.v
theories/PropField.v
theories/SpecResume.v
theories/PropResume.v
theories/Message.v
theories/SpecMessage.v
theories/ProofMessage.v
theories/PropMessage.v
theories/SpecInterop.v
theories/PropInterop.v
theories/Object.v
theories/SpecObject.v
theories/ProofObject.v
theories/PropObject.v
theories/ProofReentry.v
theories/ProofReentry2.v
theories/PropReentry.v
theories/AsyncObject.v
theories/ProofAsyncObject.v
theories/ProofSameObject.v
theories/ProofAsyncAdaptive.v
theories/PropSameObject.v
theories/AsyncReentry.v
theories/ProofAsyncReentry.v
theories/ProofAsyncReentry2.v
theories/SpecReentry.v
theories/ProofAsyncReentry3.v
theories/PropAsyncReentry.v
theories/SamplesRfc6455.v
theories/ProofHeld.v
theories/PropAsyncFailure.v
theories/SpecProcessStop.v
theories/PropProcessStop.v
theories/PropAsyncClose.v
theories/SpecProper.v
theories/PropProper.v
theories/PropBound2.v
theories/PropCost2.v
theories/SpecEnds.v
theories/PropEnds.v
theories/PropTold.v
theories/PropEndsAsync.v
