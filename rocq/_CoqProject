-Q theories Verif

theories/Base.v
theories/Spec.v
theories/NondomModel.v
theories/NondomProofs.v
theories/NondomProofs2d.v
theories/NondomMain.v
theories/NondomExtra.v
theories/PropNondom.v
theories/ParetoRankModel.v
theories/ParetoRankProofs.v
theories/PropParetoRank.v
theories/HvSpec.v
theories/Hv2dModel.v
theories/Hv2dProofs.v
theories/HvModel.v
theories/HvLinks.v
theories/Hv3dProofs.v
theories/HvNdProofs.v
theories/HvMain.v
theories/HvFacts.v
theories/PropHv.v
theories/HvShiftModel.v
theories/HvShiftProofs.v
theories/PropHv2.v
theories/IndSpec.v
theories/EpsModel.v
theories/EpsProofs.v
theories/PropEps.v
theories/IgdSpec.v
theories/IgdModel.v
theories/IgdProofs.v
theories/PropIgd.v
theories/EafSpec.v
theories/EafModel.v
theories/EafProofs.v
theories/EafMain.v
theories/BitArrayModel.v
theories/BitArrayProofs.v
theories/EafStoreModel.v
theories/EafStoreProofs.v
theories/EafTop.v
theories/PropEaf.v
theories/RectSpec.v
theories/RectModel.v
theories/RectProofs.v
theories/RectTop.v
theories/PropRect.v
theories/CvectorModel.v
theories/CvectorSpec.v
theories/PropCvector.v
theories/MtSpec.v
theories/MtModel.v
theories/MtProofs.v
theories/PropMt.v
theories/WhvSpec.v
theories/WhvModel.v
theories/WhvProofs.v
theories/PropWhv.v
theories/NormModel.v
theories/NormSpec.v
theories/PropNorm.v
theories/FbModel.v
theories/FbSpec.v
theories/PropFb.v
theories/HypeModel.v
theories/HypeSpec.v
theories/PropHype.v
theories/AvlModel.v
theories/AvlSpec.v
theories/AvlProofs.v
theories/AvlRotate.v
theories/AvlOps.v
theories/HvAvlModel.v
theories/HvAvlProofs.v
theories/PropAvl.v
theories/GroupModel.v
theories/GroupSpec.v
theories/GroupProofs.v
theories/PropGroup.v
theories/PyEafModel.v
theories/PyEafSpec.v
theories/PyEafProofs.v
theories/PropPyEaf.v
theories/VorobModel.v
theories/VorobSpec.v
theories/PropVorob.v
theories/PropVorobFloat.v
theories/PctFloatModel.v
theories/PropPctFloat.v
theories/EpsFloatModel.v
theories/PropEpsFloat.v
theories/HvFloatModel.v
theories/PropHvFloat.v
theories/NormFloatModel.v
theories/PropNormFloat.v
theories/IoModel.v
theories/IoSpec.v
theories/IoProofs.v
theories/IoMain.v
theories/IoFmt.v
theories/PropIo.v
theories/PropIoFloat.v
theories/Eaf3dModel.v
theories/Eaf3dTrees.v
theories/Eaf3dProofs.v
theories/Eaf3dMain.v
theories/Eaf3dSpec.v
theories/Eaf3dFlags.v
theories/Eaf3dTop.v
theories/PropEaf3d.v
theories/EafMainSpec.v
theories/EafMainModel.v
theories/EafMainProofs.v
theories/PropEafMain.v
theories/NdsortModel.v
theories/NdsortSpec.v
theories/PropNdsort.v
theories/OptModel.v
theories/PropOpt.v
theories/HvApproxModel.v
theories/PropHvApprox.v
theories/PropHvApproxMean.v
theories/PropHvApprox2d.v
theories/PropHvApproxAll.v
theories/AvlFrame.v
theories/Eaf3dPtrModel.v
theories/Eaf3dPtrTree.v
theories/Eaf3dPtrLevel.v
theories/Eaf3dPtrRel.v
theories/Eaf3dPtrSim.v
theories/Eaf3dPtrSet.v
theories/Eaf3dPtrMain.v
theories/Eaf3dPtrOut.v
theories/PropEaf3dPtr.v
theories/PolySpec.v
theories/PolyModel.v
theories/PolyProofs.v
theories/PolyTop.v
theories/PropPoly.v
theories/CmdModel.v
theories/CmdSpec.v
theories/CmdProofs.v
theories/CmdExample.v
theories/CmdLoop.v
theories/HvCmdModel.v
theories/HvCmdSpec.v
theories/HvCmdProofs.v
theories/PropHvCmd.v
theories/IndCmdModel.v
theories/IndCmdSpec.v
theories/IndCmdProofs.v
theories/PropIndCmd.v
theories/NdCmdModel.v
theories/NdCmdSpec.v
theories/NdCmdProofs.v
theories/NdCmdRun.v
theories/NdImage.v
theories/PropNdCmd.v
theories/PropNdNorm.v
theories/DsCmdModel.v
theories/DsCmdSpec.v
theories/DsCmdProofs.v
theories/DsCmdRun.v
theories/PropDsCmd.v
theories/NdsCmdModel.v
theories/NdsCmdSpec.v
theories/PropNdsCmd.v
theories/RMatModel.v
theories/RMatSpec.v
theories/RMatProofs.v
theories/RIndModel.v
theories/PropRInd.v
theories/PropRIgd.v
theories/REafModel.v
theories/REafSpec.v
theories/REafProofs.v
theories/PropREaf.v
theories/RVorobModel.v
theories/RVorobSpec.v
theories/PropRVorob.v
theories/RFileModel.v
theories/RFileSpec.v
theories/RFileProofs.v
theories/PropRFile.v
theories/RWhvModel.v
theories/RWhvSpec.v
theories/RRectSpec.v
theories/RRectModel.v
theories/PropRWhv.v
theories/RRectProofs.v
theories/PropRRect.v
theories/PyIndModel.v
theories/PyIndSpec.v
theories/PropPyInd.v
theories/MexModel.v
theories/PropMex.v
theories/PolyMainSpec.v
theories/PolyMainModel.v
theories/PolyMainProofs.v
theories/PropPolyMain.v
theories/ZigTables.v
theories/RngModel.v
theories/ProbSpec.v
theories/ProbFacts.v
theories/HypeDistModel.v
theories/HypeDistSpec.v
theories/PropHypeDist.v
theories/ExpBounds.v
theories/ZigFacts.v
theories/GaussInt.v
theories/ZigNum.v
theories/ZigSpec.v
theories/ZigLaw.v
theories/ZigBody.v
theories/ZigTail.v
theories/GaussPi.v
theories/NormalSpec.v
theories/PropNormal.v
theories/MtEqui.v
theories/PropMtEqui.v
theories/PropHypeMean.v
theories/IgdFloatModel.v
theories/PropIgdFloat.v
theories/PropHypeVar.v
theories/HvContribFloatModel.v
theories/PropHvContribFloat.v
theories/NdsortFloatModel.v
theories/PropNdsortFloat.v
theories/WhvFloatModel.v
theories/PropWhvFloat.v
theories/Eaf3dFreeModel.v
theories/Eaf3dFree.v
theories/PropEaf3dFree.v
