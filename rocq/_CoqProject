-Q theories Verif
theories/BaseBytes.v
theories/ModelMessage.v
theories/ModelWrite.v
theories/ModelStream.v
theories/ModelPool.v
theories/ModelPayload.v
theories/SpecWire.v
theories/SpecMessage.v
theories/SpecWrite.v
theories/SpecStream.v
theories/SpecPool.v
theories/SpecText.v
theories/ProofMessage.v
theories/ProofWire.v
theories/ProofWrite.v
theories/ProofStream.v
theories/ProofText.v
theories/ProofPool.v
theories/ProofCodec.v
theories/ProofReread.v
theories/PropsCodec.v
theories/BaseConc.v
theories/ModelRequests.v
theories/SpecRequests.v
theories/ProofRequests.v
theories/ProofRequests2.v
theories/PropsRequests.v
theories/ModelSemaphore.v
theories/SpecSemaphore.v
theories/ProofSemaphore.v
theories/ProofSemaphore2.v
theories/PropsSemaphore.v
theories/ModelHandle.v
theories/SpecHandle.v
theories/ProofHandle.v
theories/PropsHandle.v
theories/ModelDispatch.v
theories/SpecDispatch.v
theories/ProofDispatch.v
theories/ProofDispatch2.v
theories/ProofDispatch3.v
theories/ProofDispatch4.v
theories/ProofDispatch5.v
theories/PropsDispatch.v
theories/ModelSession.v
theories/SpecSession.v
theories/ProofSession.v
theories/ProofSession2.v
theories/ProofSession3.v
theories/ProofSession4.v
theories/ProofSession5.v
theories/ProofSession6.v
theories/ProofSession7.v
theories/ProofSession8.v
theories/ProofSession9.v
theories/PropsSession.v
theories/ModelMemchan.v
theories/SpecMemchan.v
theories/ProofMemchan.v
theories/ProofMemchan2.v
theories/ProofMemchan3.v
theories/ProofMemchan4.v
theories/ProofMemchan5.v
theories/ProofMemchan6.v
theories/ProofMemchan7.v
theories/ProofMemchan8.v
theories/PropsMemchan.v
theories/ModelKey.v
theories/SpecKey.v
theories/ProofKey.v
theories/ProofKey2.v
theories/ModelOptions.v
theories/SpecOptions.v
theories/ProofOptions.v
theories/PropsServer.v
theories/ModelPath.v
theories/ModelFiles.v
theories/ModelDir.v
theories/SpecFiles.v
theories/ProofPath.v
theories/ProofFiles.v
theories/ProofFiles2.v
theories/ProofFiles3.v
theories/ProofFiles4.v
theories/ProofDir.v
theories/ExampleFiles.v
theories/PropsFiles.v
theories/ModelCopy.v
theories/SpecCopy.v
theories/ProofCopy.v
theories/ProofCopy2.v
theories/PropsCopy.v
theories/ModelServe.v
theories/SpecServe.v
theories/ProofServe.v
theories/ProofServe2.v
theories/ProofServe3.v
theories/ProofServe4.v
theories/ProofServe5.v
theories/PropsServe.v
theories/ModelTimer.v
theories/SpecTimer.v
theories/ProofTimer.v
theories/ProofTimer2.v
theories/PropsTimer.v
theories/ModelGetter.v
theories/SpecGetter.v
theories/ProofGetter.v
theories/PropsGetter.v
theories/ModelLink.v
theories/SpecLink.v
theories/ProofLink.v
theories/ProofLink2.v
theories/ProofLink3.v
theories/PropsLink.v
theories/SpecSettle.v
theories/ProofSettle.v
theories/PropsSettle.v
theories/ModelStack.v
theories/SpecStack.v
theories/ProofStack.v
theories/ProofStackNet.v
theories/ProofStackSrv.v
theories/ProofStack2.v
theories/ProofStack3.v
theories/ProofStack4.v
theories/ProofStack5.v
theories/ProofStack6.v
theories/ProofStack7.v
theories/ProofStackRead.v
theories/ProofStackSrv2.v
theories/ProofStack8.v
theories/ProofStack9.v
theories/ProofStack10.v
theories/ProofStack11.v
theories/ProofStack12.v
theories/PropsStack.v
theories/ModelKeep.v
theories/SpecKeep.v
theories/ProofKeep.v
theories/ProofKeep2.v
theories/ProofKeep3.v
theories/ProofKeep4.v
theories/ExampleKeep.v
theories/PropsKeep.v
theories/SpecCalls.v
theories/ProofCalls.v
theories/PropsCalls.v
theories/SpecWaits.v
theories/ProofWaits.v
theories/ProofWaits2.v
theories/PropsWaits.v
theories/ModelSocket.v
theories/SpecSocket.v
theories/ProofSocket.v
theories/ProofSocket2.v
theories/ProofSocket3.v
theories/PropsSocket.v
theories/SpecStill.v
theories/ProofStill.v
theories/ProofStill2.v
theories/ProofStill3.v
theories/ProofStill4.v
theories/ProofStill5.v
theories/PropsStill.v
theories/ModelAccess.v
theories/SpecAccess.v
theories/ProofAccess.v
theories/ProofAccess2.v
theories/ProofAccess3.v
theories/ProofAccess4.v
theories/ProofAccess5.v
theories/ProofAccess6.v
theories/PropsBytes.v
theories/ModelErrors.v
theories/SpecErrors.v
theories/ProofErrors.v
theories/PropsErrors.v
theories/SpecReasons.v
theories/ProofReasons.v
theories/PropsReasons.v
theories/ModelReply.v
theories/SpecReply.v
theories/ProofReply.v
theories/PropsReply.v
theories/ModelJson.v
theories/SpecJson.v
theories/ProofJson.v
theories/ProofJson2.v
theories/ProofJson3.v
theories/ProofJson4.v
theories/ProofJson5.v
theories/ProofJson6.v
theories/ExampleJson.v
theories/PropsJson.v
theories/ModelReport.v
theories/SpecReport.v
theories/ProofReport.v
theories/ProofReport2.v
theories/ProofReport3.v
theories/PropsReport.v
theories/ModelLog.v
theories/SpecLog.v
theories/ProofLog.v
theories/PropsLog.v
theories/ModelFault.v
theories/SpecFault.v
theories/ProofFault.v
theories/PropsFault.v
theories/SpecAgree.v
theories/ProofAgree.v
theories/ProofAgree2.v
theories/PropsAgree.v
theories/ModelStart.v
theories/SpecStart.v
theories/ProofStart.v
theories/PropsStart.v
theories/ModelSend.v
theories/SpecSend.v
theories/ProofSend.v
theories/PropsSend.v
theories/SpecSend2.v
theories/ProofSend2.v
theories/ProofSend3.v
theories/PropsSend2.v
theories/SpecAnswer.v
theories/ProofAnswer.v
theories/PropsAnswer.v
theories/PropsAccess.v
theories/SpecSeries.v
theories/ProofSeries.v
theories/PropsSeries.v
theories/SpecGreet.v
theories/ProofGreet.v
theories/PropsGreet.v
theories/SpecDeliver.v
theories/ProofDeliver.v
theories/PropsDeliver.v
theories/SpecInTurn.v
theories/ProofInTurn.v
theories/PropsInTurn.v
