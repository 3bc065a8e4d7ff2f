-Q theories Verif

theories/Base.v
theories/ModelUtf8.v
theories/SpecUtf8.v
theories/ProofUtf8.v
theories/PropUtf8.v
theories/ModelKeyed.v
theories/SpecKeyed.v
theories/ProofKeyed.v
theories/PropKeyed.v
theories/ModelValue.v
theories/ModelText.v
theories/SpecText.v
theories/ProofValue.v
theories/ProofText1.v
theories/ProofText2.v
theories/ProofText3.v
theories/ProofText4.v
theories/ProofText5.v
theories/ProofTextEx.v
theories/PropText.v
theories/ModelObject.v
theories/SpecObject.v
theories/ProofObject.v
theories/PropObject.v
theories/ModelEq.v
theories/SpecEq.v
theories/ProofEq.v
theories/PropEq.v
theories/ModelDiff.v
theories/SpecDiff.v
theories/ProofDiff.v
theories/PropDiff.v
theories/ModelArray.v
theories/SpecArray.v
theories/ProofArray.v
theories/PropArray.v
theories/ModelPath.v
theories/SpecPath.v
theories/ProofPath.v
theories/PropPath.v
theories/ModelEnc.v
theories/SpecEnc.v
theories/ProofEnc.v
theories/PropEnc.v
theories/ModelBin.v
theories/SpecBin.v
theories/ProofFloat.v
theories/ProofBin.v
theories/ProofBin2.v
theories/ProofBin3.v
theories/PropBin.v
theories/ModelHash.v
theories/SpecHash.v
theories/ProofHash.v
theories/PropHash.v
theories/ModelOrdered.v
theories/SpecOrdered.v
theories/ProofOrdered.v
theories/PropOrdered.v
theories/ModelComments.v
theories/SpecComments.v
theories/ProofComments.v
theories/PropComments.v
theories/ModelStd.v
theories/ProofStd.v
theories/ModelEnum.v
theories/ProofEnum.v
theories/PropEnum.v
theories/ModelJwt.v
theories/SpecJwt.v
theories/ProofJwt.v
theories/ProofJwt2.v
theories/PropJwt.v
theories/ModelMerge.v
theories/SpecMerge.v
theories/ProofMerge.v
theories/PropMerge.v
theories/ProofMergeNum.v
theories/PropMergeNum.v
theories/ModelString.v
theories/SpecString.v
theories/ProofString.v
theories/PropString.v
theories/ModelRpc.v
theories/SpecRpc.v
theories/ProofRpc.v
theories/ProofRpc2.v
theories/PropRpc.v
theories/PropRpc2.v
theories/ModelNumView.v
theories/ModelDate.v
theories/ModelValidator.v
theories/SpecValidator.v
theories/ProofValidator.v
theories/ProofValidator2.v
theories/ProofValidator3.v
theories/ProofTemplate.v
theories/SpecDate.v
theories/ProofDate.v
theories/ProofValidator4.v
theories/ProofValidator5.v
theories/PropDate.v
theories/PropValidator.v
theories/SpecNumView.v
theories/ProofNumView.v
theories/PropNumView.v
theories/SpecCharset.v
theories/ProofCharset.v
theories/PropCharset.v
theories/SpecTextRule.v
theories/ProofTextRule.v
theories/PropTextRule.v
theories/SpecTerm.v
theories/ProofTerm.v
theories/SpecTermCheck.v
theories/ProofTermCheck.v
theories/PropTerm.v
theories/ModelCompress.v
theories/SpecCompress.v
theories/ProofCompress.v
theories/ProofCompress2.v
theories/ProofCompress3.v
theories/ProofCompress4.v
theories/ProofCompress5.v
theories/ProofCompress6.v
theories/PropCompress.v
theories/SpecVars.v
theories/ProofVars.v
theories/ProofVars2.v
theories/ProofVars3.v
theories/ProofVars4.v
theories/PropVars.v
theories/SpecDouble.v
theories/ProofReal.v
theories/ProofDouble.v
theories/ProofDouble2.v
theories/ProofDouble3.v
theories/ProofDouble4.v
theories/ProofDouble5.v
theories/ProofDouble6.v
theories/ProofDouble7.v
theories/ProofDoubleEx.v
theories/ProofDoubleLem.v
theories/PropDouble.v
theories/SpecAccept.v
theories/ProofAccept.v
theories/ProofAccept2.v
theories/ProofAccept3.v
theories/PropAccept.v
theories/SpecNumReal.v
theories/ProofNumReal.v
theories/PropNumReal.v
theories/ModelSearch.v
theories/SpecSearch.v
theories/ProofSearch.v
theories/PropSearch.v
theories/ModelRef.v
theories/SpecRef.v
theories/ProofRef.v
theories/PropRef.v
theories/ModelPrecise.v
theories/ProofPrecise.v
theories/PropPrecise.v
theories/ModelStreams.v
theories/SpecSources.v
theories/ProofSources.v
theories/PropSources.v
theories/ModelMulticall.v
theories/SpecMulticall.v
theories/ProofMulticall.v
theories/PropMulticall.v
theories/ModelArgs.v
theories/SpecArgs.v
theories/ProofArgs.v
theories/PropArgs.v
theories/ModelJwtCrypto.v
theories/SpecJwtCrypto.v
theories/ProofJwtCrypto.v
theories/PropJwtCrypto.v
theories/ModelConc.v
theories/SpecConc.v
theories/ProofConc.v
theories/ProofConc2.v
theories/ProofConc3.v
theories/ProofConc4.v
theories/ProofConc5.v
theories/PropConc.v
theories/ModelIface.v
theories/SpecIface.v
theories/ProofIface.v
theories/PropIface.v
theories/ModelLazy.v
theories/SpecLazy.v
theories/ProofLazy.v
theories/PropLazy.v
theories/ModelConv.v
theories/SpecConv.v
theories/ProofConv.v
theories/PropConv.v
theories/SpecRpcText.v
theories/ProofRpcText.v
theories/PropRpcText.v
theories/ModelNotify.v
theories/SpecNotify.v
theories/ProofNotify.v
theories/PropNotify.v
theories/ModelWide.v
theories/ProofWide.v
theories/PropWide.v
theories/ModelParseErr.v
theories/SpecParseErr.v
theories/ProofParseErr.v
theories/ProofParseErr2.v
theories/ProofParseErr3.v
theories/PropParseErr.v
theories/ModelHeap.v
theories/SpecHeap.v
theories/ProofHeap.v
theories/ProofHeap2.v
theories/ProofHeap3.v
theories/ProofHeap4.v
theories/ProofHeap5.v
theories/ProofHeap6.v
theories/ProofHeap7.v
theories/ProofHeap8.v
theories/PropHeap.v
theories/ModelDocs.v
theories/SpecDocs.v
theories/ProofDocs.v
theories/ProofDocs2.v
theories/PropDocs.v
theories/SpecReread.v
theories/ProofReread.v
theories/PropReread.v
theories/ModelWalk.v
theories/SpecWalk.v
theories/ProofWalk.v
theories/PropWalk.v
theories/ModelParser.v
theories/SpecParser.v
theories/ProofParser.v
theories/ProofParser2.v
theories/ProofParser3.v
theories/ProofParser4.v
theories/PropParser.v
theories/ModelMem.v
theories/SpecMem.v
theories/ProofMem.v
theories/ProofMem2.v
theories/PropMem.v
theories/ModelKeyView.v
theories/SpecKeyView.v
theories/ProofKeyView.v
theories/PropKeyView.v
theories/ModelPathMem.v
theories/SpecPathMem.v
theories/ModelObjSize.v
theories/SpecObjSize.v
theories/ProofObjSize.v
theories/PropObjSize.v
theories/ProofPathMem.v
theories/PropPathMem.v
theories/SpecJson.v
theories/ProofJson.v
theories/ProofJson2.v
theories/ProofJson3.v
theories/PropJson.v
theories/SpecBinText.v
theories/ProofBinText.v
theories/PropBinText.v
theories/ModelRelease.v
theories/SpecRelease.v
theories/ProofRelease.v
theories/ProofRelease2.v
theories/ProofRelease3.v
theories/ProofRelease4.v
theories/PropRelease.v
theories/SpecThrough.v
theories/ProofThrough.v
theories/PropThrough.v
theories/SpecNumRead.v
theories/ProofNear.v
theories/ProofNumRead.v
theories/ProofNumRead2.v
theories/ProofNumRead3.v
theories/PropNumRead.v
theories/SpecWire.v
theories/SpecTold.v
theories/ProofWire.v
theories/ProofWire2.v
theories/PropWire.v
theories/ProofCut.v
theories/ProofUnclosed.v
theories/PropCut.v
theories/ModelCstr.v
theories/SpecCstr.v
theories/ProofCstr.v
theories/PropCstr.v
theories/ModelArrays.v
theories/SpecArrays.v
theories/ProofArrays.v
theories/PropArrays.v
theories/ModelJwtKeys.v
theories/SpecJwtKeys.v
theories/ProofJwtKeys.v
theories/PropJwtKeys.v
theories/SpecCost.v
theories/ProofCost.v
theories/PropCost.v
theories/ModelRegLife.v
theories/SpecRegLife.v
theories/ProofRegLife.v
theories/PropRegLife.v
theories/ModelReqLife.v
theories/SpecReqLife.v
theories/ProofReqLife.v
theories/PropReqLife.v
theories/SpecEnd.v
theories/ProofEnd.v
theories/ProofMarks.v
theories/PropEnd.v
theories/ModelFail.v
theories/SpecFail.v
theories/ProofFail.v
theories/PropFail.v
theories/ModelConst.v
theories/SpecConst.v
theories/ProofConst.v
theories/PropConst.v
theories/ModelPrepared.v
theories/SpecPrepared.v
theories/ProofPrepared.v
theories/PropPrepared.v
theories/SpecRelay.v
theories/ProofRelay.v
theories/PropRelay.v
theories/SpecStored.v
theories/ProofStored.v
theories/PropStored.v
theories/ModelSort.v
theories/SpecSort.v
theories/ProofSort.v
theories/PropSort.v
theories/ModelConn.v
theories/SpecConn.v
theories/ProofConn.v
theories/PropConn.v
theories/SpecReuse.v
theories/ProofReuse.v
theories/PropReuse.v
theories/SpecPathValue.v
theories/ProofPathValue.v
theories/PropPathValue.v
theories/SpecPoints.v
theories/ProofPoints.v
theories/PropPoints.v
theories/SpecMessage.v
theories/ProofMessage.v
theories/PropMessage.v
theories/ModelRpcError.v
theories/SpecRpcError.v
theories/ProofRpcError.v
theories/PropRpcError.v
theories/ModelTools.v
theories/ProofTools.v
theories/ProofTools2.v
theories/ProofTools3.v
theories/PropTools.v
theories/PropTools2.v
theories/ModelCheckTool.v
theories/SpecCheckTool.v
theories/ProofCheckTool.v
theories/PropCheckTool.v
theories/ModelOwnDef.v
theories/SpecOwnDef.v
theories/ProofOwnDef.v
theories/PropOwnDef.v
