-Q theories Verif
theories/Base.v
theories/Scalar.v
theories/InstR.v
theories/InstZ.v
theories/InstF.v
theories/LBase.v
theories/MVector.v
theories/LVector.v
theories/Spec.v
theories/LSum.v
theories/LVectorR.v
theories/LVector2.v
theories/LF64.v
theories/LVecProps.v
theories/PVector1.v
theories/LVecProps2.v
theories/PVector2.v
theories/MMatrix.v
theories/LMatrix.v
theories/LMatrixR.v
theories/PMatrix1.v
theories/LMat4.v
theories/LMat5.v
theories/LMat6.v
theories/PMatrix2.v
theories/MMatrix2.v
theories/PMatrix3.v
theories/LMat7.v
theories/PMatrix4.v
theories/Spec2.v
theories/PMatrix5.v
theories/MQuaternion.v
theories/Spec3.v
theories/PQuaternion.v
theories/PSlerp.v
theories/MAabb.v
theories/PAabb.v
theories/MFrustum.v
theories/Spec4.v
theories/PFrustum.v
theories/PCuller.v
theories/PIntersection.v
theories/MMisc.v
theories/PMisc.v
theories/Spec5.v
theories/PQr.v
theories/MNum.v
theories/Spec6.v
theories/PNum.v
theories/MIo.v
theories/PIo.v
theories/PFloat.v
theories/PConfig.v
theories/MAlias.v
theories/PAlias.v
theories/Spec7.v
theories/PRotation.v
theories/MExtra.v
theories/PExtra.v
theories/PVector3.v
theories/PMatrix6.v
theories/PQr2.v
theories/LHom.v
theories/Spec8.v
theories/PHom.v
theories/PExtra2.v
theories/PCuller2.v
theories/Spec9.v
theories/PSafe.v
theories/MIndex.v
theories/PIndex.v
theories/PIo2.v
theories/LFloat.v
theories/PFloat2.v
theories/Spec10.v
theories/LExt.v
theories/PFloat3.v
theories/InstF32.v
theories/PF32.v
theories/LF32.v
theories/PF32b.v
theories/Spec10f.v
theories/LExt32.v
theories/PF32c.v
theories/MFloat.v
theories/LF32d.v
theories/PF32d.v
theories/PF32e.v
theories/LErr.v
theories/PCuller3.v
theories/MPrint.v
theories/PPrint.v
theories/PQuatF.v
theories/PCuller4.v
theories/PIo3.v
theories/MMisc2.v
theories/PMisc2.v
theories/PFloat4.v
theories/PAabbF.v
theories/PFrustumF.v
theories/PFloat5.v
theories/PRayF.v
theories/PLimits.v
theories/PViewF.v
theories/PViewO.v
theories/PPartial.v
theories/MFloat2.v
theories/PRandF.v
theories/PMixed.v
theories/LExpr.v
theories/LExprF.v
theories/Spec11.v
theories/LDet.v
theories/PDetF.v
theories/PInvF.v
theories/PInvF32.v
theories/Spec12.v
theories/PChain.v
theories/PQrF.v
theories/PHomF.v
theories/PQrO.v
theories/MFilter.v
theories/PFilter.v
theories/MCullF.v
theories/PCullF.v
theories/PCullF2.v
theories/MViewF.v
theories/PFrustumF32.v
theories/PViewF32.v
theories/PViewO32.v
theories/PTarget.v
theories/PEqF32.v
theories/PAabbF32.v
theories/MDouble.v
theories/PDouble.v
theories/PAkin.v
theories/PDistF32.v
theories/PRayF32.v
theories/PQuatF32.v
theories/PChainF32.v
theories/PQrF32.v
theories/PHomF32.v
theories/PQrO32.v
theories/Spec13.v
theories/LRot.v
theories/PRotF.v
theories/PRotF32.v
theories/PQuatN.v
theories/PQuatN32.v
theories/LQSet.v
theories/MLit.v
theories/PQSet.v
theories/MQSetF.v
theories/PQSetF.v
theories/PNan.v
theories/PNan32.v
theories/PRecip.v
theories/PRecip32.v
theories/LNormal.v
theories/PNormal.v
theories/MNormalF.v
theories/PNormal32.v
theories/LVecRot.v
theories/PVecRot.v
theories/MVecRotF.v
theories/PVecRot32.v
theories/LDist.v
theories/PDist.v
theories/MDistF.v
theories/PDist32.v
theories/LQuant.v
theories/MQuantF.v
theories/PQuantF.v
theories/PQuantF32.v
theories/PAdjust.v
theories/LPersp.v
theories/MPersp.v
theories/PPersp.v
theories/PAdjust32.v
theories/PPersp32.v
theories/LSlerp.v
theories/PSlerpF.v
theories/MSlerpF.v
theories/PSlerpF32.v
theories/LPlane.v
theories/PPlaneF.v
theories/MPlaneF.v
theories/PPlaneF32.v
theories/PSumsF.v
theories/PSumsF32.v
theories/MDctF.v
theories/PDctF.v
theories/LPerspCull.v
theories/PPerspCull.v
theories/PPerspCull32.v
theories/Spec14.v
theories/PMoveF.v
theories/PMoveF32.v
theories/Spec15.v
theories/PCornerF.v
theories/PCornerF32.v
theories/Spec16.v
theories/LWorld.v
theories/PWorldF.v
theories/PWorldF32.v
theories/Spec17.v
theories/LEdit.v
theories/PEditF.v
theories/PEditF32.v
theories/Spec18.v
theories/LEye.v
theories/PEyeF.v
theories/PEyeF32.v
theories/Spec19.v
theories/LScreen.v
theories/PScreenF.v
theories/PScreenF32.v
theories/LUndo.v
theories/PUndoF.v
theories/PUndoF32.v
theories/PAffF.v
theories/PAffF32.v
theories/Spec20.v
theories/LRigid.v
theories/PRigidF.v
theories/PRigidF32.v
theories/PBoxF.v
theories/PBoxF32.v
