-Q theories Verif

theories/Bytes.v
theories/ModelSpace.v
theories/SpecSpace.v
theories/ProofSpace.v
theories/ProofRooted.v
theories/PropsSpace.v
theories/ModelPkt.v
theories/SpecPkt.v
theories/ProofPkt.v
theories/ProofPkt2.v
theories/PropsPkt.v
theories/ModelStream.v
theories/SpecStream.v
theories/ProofStream.v
theories/PropsStream.v
theories/ModelTree.v
theories/SpecTree.v
theories/ProofTree.v
theories/PropsTree.v
theories/ModelTestSet.v
theories/SpecTestSet.v
theories/ProofTestSet.v
theories/PropsTestSet.v
theories/ModelStore.v
theories/SpecStore.v
theories/ProofStore.v
theories/PropsStore.v
theories/ModelPred.v
theories/SpecPred.v
theories/ProofPred.v
theories/PropsPred.v
theories/ModelQuery.v
theories/ProofQuery.v
theories/ProofWalk.v
theories/SpecQuery.v
theories/ProofPred2.v
theories/ProofQuery2.v
theories/ProofQuery3.v
theories/ProofQuery4.v
theories/ProofFuel.v
theories/ExStore.v
theories/PropsQuery.v
theories/ModelWatch.v
theories/SpecWatch.v
theories/ProofWatch.v
theories/ProofWatch2.v
theories/ProofWatch3.v
theories/ProofWatch4.v
theories/ProofWatch5.v
theories/ProofWatch6.v
theories/ProofWatch7.v
theories/PropsWatch.v
theories/PropsPred2.v
theories/ModelAbe.v
theories/SpecAbe.v
theories/ProofAbe.v
theories/ProofAbe2.v
theories/ProofAbe3.v
theories/PropsAbe.v
theories/ModelFmt.v
theories/SpecFmt.v
theories/ProofFmt.v
theories/PropsFmt.v
theories/ModelEval.v
theories/ModelFn.v
theories/SpecEval.v
theories/ProofEval.v
theories/ProofEval2.v
theories/ProofEval3.v
theories/ProofFn.v
theories/ProofEval4.v
theories/PropsEval.v
theories/ModelStamp.v
theories/SpecStamp.v
theories/ProofStamp.v
theories/PropsStamp.v
theories/ModelQText.v
theories/SpecQText.v
theories/ProofQText.v
theories/ProofQText2.v
theories/ProofQText3.v
theories/ProofQText4.v
theories/ProofQText5.v
theories/ProofQText6.v
theories/ProofQText7.v
theories/PropsQText.v
theories/ModelNet.v
theories/SpecNet.v
theories/ProofNet.v
theories/PropsNet.v
theories/ModelLns.v
theories/SpecLns.v
theories/ProofLns.v
theories/ProofLns2.v
theories/PropsLns.v
theories/ModelHand.v
theories/SpecHand.v
theories/ProofHand.v
theories/ProofHand2.v
theories/PropsHand.v
theories/ModelBus.v
theories/SpecBus.v
theories/ProofBus.v
theories/ProofBus2.v
theories/ProofBus3.v
theories/PropsBus.v
theories/ModelRun.v
theories/SpecRun.v
theories/ProofRun.v
theories/ProofRun2.v
theories/PropsRun.v
theories/ModelHtml.v
theories/SpecHtml.v
theories/ProofHtml.v
theories/ProofHtml2.v
theories/ProofHtml3.v
theories/ProofHtml4.v
theories/ProofHtml5.v
theories/PropsHtml.v
theories/ModelKey.v
theories/SpecKey.v
theories/ProofKey.v
theories/PropsKey.v
theories/ModelLkKey.v
theories/SpecLkKey.v
theories/ProofLkKey.v
theories/ProofLkKey2.v
theories/PropsLkKey.v
theories/ModelPull.v
theories/SpecPull.v
theories/ProofPull.v
theories/PropsPull.v
theories/ModelStatus.v
theories/SpecStatus.v
theories/ProofStatus.v
theories/ProofStatus2.v
theories/ProofStatus3.v
theories/PropsStatus.v
theories/ModelFollow.v
theories/SpecFollow.v
theories/PropsFollow.v
theories/ModelPktScope.v
theories/SpecPktScope.v
theories/ProofPktScope.v
theories/ProofPktScope2.v
theories/PropsPktScope.v
theories/SpecPktText.v
theories/PropsPktText.v
theories/ModelCliQuery.v
theories/SpecCliQuery.v
theories/ProofCliQuery.v
theories/ProofCliQuery2.v
theories/ProofCliQuery3.v
theories/ProofCliQuery4.v
theories/PropsCliQuery.v
theories/ModelRead.v
theories/SpecRead.v
theories/ProofRead.v
theories/ProofRead2.v
theories/ProofRead3.v
theories/PropsRead.v
theories/SpecEncode.v
theories/ProofEncode.v
theories/PropsEncode.v
theories/SpecLogic.v
theories/ProofLogic.v
theories/PropsLogic.v
theories/ModelFile.v
theories/SpecFile.v
theories/ProofFile.v
theories/ProofFile2.v
theories/ProofFile3.v
theories/PropsFile.v
theories/ModelReader.v
theories/SpecReader.v
theories/ProofReader.v
theories/ProofReader2.v
theories/ProofReader3.v
theories/ProofReader4.v
theories/PropsReader.v
theories/ModelCollect.v
theories/SpecCollect.v
theories/ProofCollect.v
theories/ProofCollect2.v
theories/PropsCollect.v
theories/ModelRewrite.v
theories/SpecRewrite.v
theories/ProofRewrite.v
theories/PropsRewrite.v
theories/ModelSelect.v
theories/SpecSelect.v
theories/ProofSelect.v
theories/PropsSelect.v
theories/ModelLinks.v
theories/SpecLinks.v
theories/PropsLinks.v
theories/ModelSave.v
theories/SpecSave.v
theories/PropsSave.v
theories/ModelMulti.v
theories/ProofMulti.v
theories/PropsMulti.v
theories/ModelPy.v
theories/SpecPy.v
theories/PropsPy.v
theories/ModelPktf.v
theories/SpecPktf.v
theories/PropsPktf.v
theories/ProofSound.v
theories/PropsDepth.v
theories/ModelDest.v
theories/SpecDest.v
theories/PropsDest.v
theories/ModelByHash.v
theories/SpecByHash.v
theories/PropsByHash.v
theories/ModelUniform.v
theories/SpecUniform.v
theories/PropsUniform.v
theories/ModelPyPoint.v
theories/SpecPyPoint.v
theories/PropsPyPoint.v
theories/SpecPush.v
theories/PropsPush.v
theories/ModelJs.v
theories/SpecJs.v
theories/PropsJs.v
theories/ModelJsPoint.v
theories/SpecJsPoint.v
theories/PropsJsPoint.v
theories/ModelJsPkt.v
theories/SpecJsPkt.v
theories/PropsJsPkt.v
theories/ModelOpen.v
theories/SpecOpen.v
theories/PropsOpen.v
theories/ModelTls.v
theories/SpecTls.v
theories/PropsTls.v
theories/ModelKeygen.v
theories/SpecKeygen.v
theories/PropsKeygen.v
theories/ModelPartial.v
theories/SpecPartial.v
theories/PropsPartial.v
theories/ModelSerde.v
theories/SpecSerde.v
theories/PropsSerde.v
theories/ModelSpMatch.v
theories/SpecSpMatch.v
theories/PropsSpMatch.v
theories/ModelDbCheck.v
theories/SpecDbCheck.v
theories/PropsDbCheck.v
