-Q theories Verif
theories/Base.v
theories/Scalar.v
theories/MVector.v
theories/Spec.v
theories/LBase.v
theories/LVector.v
theories/LVectorR.v
theories/PVector.v
theories/MMatrix.v
theories/LMatrix.v
theories/LMatrixDet.v
theories/LMatrixR.v
theories/LMatrixM.v
theories/PMatrix.v
theories/MReal.v
theories/LReal.v
theories/MComplex.v
theories/LComplex.v
theories/LComplexR.v
theories/PComplex.v
theories/MPoint.v
theories/MAngle.v
theories/MMisc.v
theories/LMisc.v
theories/LLp.v
theories/PMisc.v
theories/MRot.v
theories/MQuat.v
theories/LQuat.v
theories/SpecRot.v
theories/LRot.v
theories/LRotBetween.v
theories/LLook.v
theories/LRotP.v
theories/PRot.v
theories/LQuatR.v
theories/LQuatFn.v
theories/LQuatInv.v
theories/LQuatP.v
theories/PQuat.v
theories/SpecTransform.v
theories/MTransform.v
theories/LTransform.v
theories/LTransformF.v
theories/LTransformR.v
theories/LTransformS.v
theories/LTransformP.v
theories/PTransform.v
theories/MFloat.v
theories/SpecProjection.v
theories/MProjection.v
theories/LProjection.v
theories/LProjectionP.v
theories/PProjection.v
theories/MInt.v
theories/LInt.v
theories/LIntP.v
theories/PInt.v
theories/LFloat.v
theories/LFloatP.v
theories/PFloat.v
theories/MFloatVec.v
theories/LFloatVec.v
theories/LFloatNormP.v
theories/MApprox.v
theories/SpecApprox.v
theories/LApprox.v
theories/LApproxP.v
theories/PApprox.v
theories/LRestP.v
theories/PRest.v
theories/SpecF.v
theories/LFloatEx.v
theories/LFloatAcc.v
theories/LFloatExP.v
theories/PFloatEx.v
theories/MRem.v
theories/LRemP.v
theories/PRem.v
theories/MSign.v
theories/LSignP.v
theories/PSign.v
theories/MDisplay.v
theories/SpecText.v
theories/LDisplayP.v
theories/PDisplay.v
theories/MAngleF.v
theories/LAngleFP.v
theories/PAngleF.v
theories/LLerpFP.v
theories/PLerpF.v
theories/MComplexF.v
theories/SpecLibm.v
theories/SpecCR.v
theories/LComplexFP.v
theories/LComplexGP.v
theories/LComplexIP.v
theories/LLibmP.v
theories/LComplexJP.v
theories/SpecLibmS.v
theories/LTrigB.v
theories/LComplexLP.v
theories/LComplexMP.v
theories/PComplexF.v
theories/LSqrtSq.v
theories/LComplexHP.v
theories/LComplexKP.v
theories/PComplexH.v
theories/MView.v
theories/LViewP.v
theories/PView.v
theories/MChecked.v
theories/LChecked.v
theories/LCheckedP.v
theories/PChecked.v
theories/SpecDrift.v
theories/LDrift.v
theories/LDriftM.v
theories/LDriftP.v
theories/PDrift.v
theories/LProjF.v
theories/LProjFP.v
theories/PProjF.v
theories/MRotF.v
theories/SpecRotF.v
theories/LRotF.v
theories/LRotFP.v
theories/PRotF.v
theories/SpecRigid.v
theories/LRigidF.v
theories/LRigidFP.v
theories/LRigidGP.v
theories/PRigidF.v
theories/MArcF.v
theories/SpecArc.v
theories/LArc.v
theories/LArcN.v
theories/LArcP.v
theories/LArcQ.v
theories/LArcS.v
theories/LArcA.v
theories/LArcR.v
theories/LArcT.v
theories/PArcF.v
theories/LNormF.v
theories/PFloatNorm.v
theories/MLookF.v
theories/SpecLook.v
theories/LLookF.v
theories/LLookFP.v
theories/LLookGP.v
theories/PLookF.v
theories/SpecMirror.v
theories/MRefF.v
theories/LRefF.v
theories/LRefFP.v
theories/PRefF.v
theories/SpecQInv.v
theories/MQInvF.v
theories/LQInvF.v
theories/LQInvFP.v
theories/PQInvF.v
theories/SpecTrSc.v
theories/LTrScF.v
theories/LTrScFP.v
theories/PTrScF.v
theories/SpecQMat.v
theories/MQMatF.v
theories/LQMatF.v
theories/LQMatFP.v
theories/PQMatF.v
theories/SpecSlerp.v
theories/LSlerp.v
theories/LSlerpG.v
theories/LSlerpF.v
theories/LSlerpS.v
theories/LSlerpW.v
theories/LSlerpP.v
theories/LSlerpFP.v
theories/PSlerpF.v
theories/MDegF.v
theories/LDegF.v
theories/LDegFP.v
theories/PDegF.v
theories/LComplexVP.v
theories/SpecCplx.v
theories/LCplxF.v
theories/LCplxFP.v
theories/LCplxFQ.v
theories/PCplxF.v
theories/SpecBetw.v
theories/LBetw.v
theories/LBetwF.v
theories/LBetwP.v
theories/LBetwQ.v
theories/LBetwR.v
theories/PBetwF.v
theories/SpecAng.v
theories/MAngF.v
theories/LAng.v
theories/LAngF.v
theories/LAngG.v
theories/LAngH.v
theories/LAngR.v
theories/PAngF.v
theories/MQFunF.v
theories/SpecQFun.v
theories/LQFunF.v
theories/LQFunG.v
theories/LQFunH.v
theories/LQFunI.v
theories/LQFunR.v
theories/PQFunF.v
theories/LConv.v
theories/PConv.v
theories/LQFunP.v
theories/LQFunT.v
theories/LQFunS.v
theories/PQPowF.v
theories/SpecUnp.v
theories/LUnpF.v
theories/LUnpG.v
theories/LUnpH.v
theories/LUnpI.v
theories/LUnpJ.v
theories/LUnpK.v
theories/LUnpL.v
theories/LUnpM.v
theories/PUnpF.v
theories/SpecInv.v
theories/LInvA.v
theories/LInvB.v
theories/LInvC.v
theories/LInvD.v
theories/LInvE.v
theories/LInvF.v
theories/LInvG.v
theories/LInvH.v
theories/LInvI.v
theories/LInvJ.v
theories/LInvK.v
theories/PInv.v
theories/SpecFov.v
theories/MFov.v
theories/LFovA.v
theories/LFovB.v
theories/LFovC.v
theories/LFovD.v
theories/LFovE.v
theories/PFov.v
theories/MNormF.v
theories/LNormFA.v
theories/LNormFP.v
theories/PNormF.v
theories/SpecPowF.v
theories/MPowF.v
theories/LPowFA.v
theories/LPowFB.v
theories/LPowFP.v
theories/PPowF.v
theories/SpecLpF.v
theories/MLpF.v
theories/LLpFA.v
theories/LLpFP.v
theories/PLpF.v
theories/MCplxG.v
theories/LCplxG.v
theories/LCplxGP.v
theories/PCplxG.v
theories/MReport.v
theories/SpecReport.v
theories/LReport.v
theories/PReport.v
theories/LQInOut.v
theories/PQInOut.v
theories/MQPolF.v
theories/LQPolF.v
theories/LQPolP.v
theories/PQPolF.v
theories/LTfF.v
theories/LTfP.v
theories/PTfF.v
theories/LSame.v
theories/LSameP.v
theories/PSame.v
theories/LAffM.v
theories/LAffMP.v
theories/PAffM.v
theories/LTraceF.v
theories/LTraceFP.v
theories/PTraceF.v
theories/LSimF.v
theories/LSimFP.v
theories/PSimF.v
theories/MViewF.v
theories/LViewF.v
theories/LViewFP.v
theories/PViewF.v
theories/LLinFP.v
theories/PLinF.v
theories/LMixFP.v
theories/PMixF.v
theories/LTfMulP.v
theories/PTfMul.v
theories/LTfInv.v
theories/LTfInvP.v
theories/PTfInv.v
theories/LProjVP.v
theories/PProjV.v
theories/LDiagFP.v
theories/PDiagF.v
theories/LDivFP.v
theories/PDivF.v
theories/LSignLawP.v
theories/PSignLaw.v
theories/LDetLawP.v
theories/PDetLaw.v
theories/LCrossLawP.v
theories/PCrossLaw.v
