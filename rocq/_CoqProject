-Q theories Verif
theories/Base.v
theories/NumR.v
theories/NumF.v
theories/ModelSir.v
theories/ModelArr.v
theories/ModelSmp.v
theories/BaseLemmas.v
theories/ProofsLocal.v
theories/ProofsLocalArr.v
theories/ProofsSmp.v
theories/ProofsCall.v
theories/SpecSmp.v
theories/ProofsSmp2.v
theories/ExJob.v
theories/PropSmp.v
theories/SpecSir.v
theories/ProofsEnum.v
theories/SpecRayleigh.v
theories/ProofsR.v
theories/ProofsRayleigh.v
theories/ProofsSirR.v
theories/ProofsErr.v
theories/ProofsTerm.v
theories/ProofsStatus.v
theories/PropErr.v
theories/SpecTermF.v
theories/ProofsTermF.v
theories/PropTermF.v
theories/PropSir.v
theories/SpecArr.v
theories/ProofsArr.v
theories/PropArr.v
theories/ProofsLoop.v
theories/SpecAnnu.v
theories/ProofsAnnu.v
theories/PropAnnu.v
theories/SpecDft.v
theories/ProofsDft.v
theories/ModelConv.v
theories/SpecConv.v
theories/ProofsConv.v
theories/ProofsConvR.v
theories/ProofsCols.v
theories/ProofsOla.v
theories/ProofsSum.v
theories/PropConv.v
theories/SpecAtt.v
theories/ProofsAtt.v
theories/PropAtt.v
theories/ModelDas.v
theories/SpecDas.v
theories/ProofsCallG.v
theories/ProofsDas.v
theories/ProofsDasR.v
theories/ProofsRca.v
theories/ProofsDasJ.v
theories/ProofsUni.v
theories/PropDas.v
theories/PropDas2.v
theories/PropUni.v
theories/PropDas3.v
theories/ModelGw.v
theories/SpecGw.v
theories/ProofsGw.v
theories/ProofsGw2.v
theories/ProofsGw3.v
theories/ProofsGw4.v
theories/ProofsGw5.v
theories/PropGw.v
theories/SpecGwR.v
theories/ProofsGwR.v
theories/PropGwR.v
theories/ModelGpu.v
theories/ProofsGpu.v
theories/PropGpu.v
theories/ModelAna.v
theories/SpecAna.v
theories/ProofsAna.v
theories/ProofsArc.v
theories/ProofsArc2.v
theories/ProofsAnaR.v
theories/ProofsAnaR2.v
theories/PropAna.v
theories/ProofsTrap.v
theories/ProofsScirc.v
theories/PropScirc.v
theories/ModelCgw.v
theories/SpecCgw.v
theories/ProofsCgw.v
theories/PropCgw.v
theories/ProofsCgw2.v
theories/PropCgw2.v
theories/ProofsCgw3.v
theories/PropCgw3.v
theories/ModelSig.v
theories/SpecSig.v
theories/ProofsSig.v
theories/PropSig.v
theories/ModelTools.v
theories/SpecTools.v
theories/ProofsTools.v
theories/PropTools.v
theories/ModelDgw.v
theories/SpecDgw.v
theories/ProofsDgw.v
theories/ProofsDgw2.v
theories/PropDgw.v
theories/PropDgw2.v
theories/ModelUgw.v
theories/SpecUgw.v
theories/ProofsUgw.v
theories/PropUgw.v
theories/PropUgw2.v
theories/ModelAgw.v
theories/SpecAgw.v
theories/ProofsAgw.v
theories/PropAgw.v
theories/PropAgw2.v
theories/PropCgw4.v
theories/ProofsCgw5.v
theories/PropCgw5.v
theories/ModelSgw.v
theories/SpecSgw.v
theories/ProofsSgw.v
theories/PropSgw.v
theories/SpecPhys.v
theories/ProofsPhys.v
theories/PropPhys.v
theories/ProofsRiemann.v
theories/PropPhys2.v
theories/SpecPhysA.v
theories/PropPhys3.v
theories/PropPhys3ex.v
theories/ModelMf.v
theories/SpecMf.v
theories/PropMf.v
theories/SpecAnnuR.v
theories/PropAnnuR.v
theories/SpecRound.v
theories/ProofsRound.v
theories/PropRound.v
theories/ProofsRel.v
theories/SpecRoundSir.v
theories/ProofsRoundSir.v
theories/PropRoundSir.v
theories/SpecShapes.v
theories/PropShapes.v
theories/PropSig2.v
theories/ProofsGridF.v
theories/SpecRoundSir2.v
theories/PropRoundSir2.v
theories/SpecPhysB.v
theories/PropPhys4.v
theories/PropPhys4ex.v
theories/SpecRoundDas.v
theories/ProofsRoundDas.v
theories/ProofsRoundDas2.v
theories/ProofsRoundDas3.v
theories/PropRoundDas.v
theories/ModelFine.v
theories/SpecFine.v
theories/ProofsFine.v
theories/ProofsFine2.v
theories/ProofsFine3.v
theories/PropFine.v
theories/ModelFine2.v
theories/ProofsFine4.v
theories/ProofsFine5.v
theories/PropFine2.v
theories/SpecField.v
theories/ProofsField.v
theories/ProofsField2.v
theories/PropField.v
theories/SpecField2.v
theories/PropField2.v
theories/SpecField3.v
theories/ProofsField3.v
theories/PropField3.v
theories/SpecField4.v
theories/PropField4.v
theories/PropFieldEx.v
theories/SpecField5.v
theories/PropField5.v
theories/PropField5ex.v
theories/SpecField6.v
theories/PropField6.v
theories/PropField6ex.v
theories/PropArrStop.v
theories/PropArrStopEx.v
theories/SpecField7.v
theories/PropField7.v
theories/ProofsDft2.v
theories/SpecAtt2.v
theories/ProofsAtt2.v
theories/PropAtt2.v
theories/PropAtt2ex.v
theories/SpecSym.v
theories/PropSym.v
theories/PropSymEx.v
theories/SpecAtt3.v
theories/ProofsAtt3.v
theories/PropAtt3.v
theories/PropAtt3ex.v
theories/PropAttSym.v
theories/PropAttSymEx.v
theories/SpecAtt4.v
theories/PropAtt4.v
theories/PropAtt4ex.v
theories/SpecRoundArr.v
theories/ProofsRoundArr.v
theories/PropRoundArr.v
theories/PropRoundArrEx.v
theories/SpecRes.v
theories/ModelRes.v
theories/ProofsRes.v
theories/ProofsRes2.v
theories/ProofsRes3.v
theories/PropRes.v
theories/SpecFine3.v
theories/ModelFine3.v
theories/ProofsFine6.v
theories/PropFine3.v
theories/ModelWeak.v
theories/SpecWeak.v
theories/ProofsWeak.v
theories/PropWeak.v
theories/PropAttSpeed.v
theories/PropAttSpeedEx.v
theories/PropAttStop.v
theories/PropAttStopEx.v
theories/PropStopAny.v
theories/SpecAttAnnu.v
theories/PropAttAnnu.v
theories/SpecAttSig.v
theories/PropAttSig.v
theories/PropAttSigEx.v
theories/PropSignal.v
theories/PropSignalEx.v
theories/ProofsUniF.v
theories/PropUniF.v
theories/PropUniFEx.v
theories/SpecUniF.v
theories/ProofsUniF2.v
theories/PropUniF2.v
theories/PropUniF2Ex.v
theories/SpecUniFG.v
theories/PropUniF3.v
theories/PropUniF3Ex.v
theories/ProofsClF.v
theories/PropClF.v
theories/PropClFEx.v
theories/ProofsClF2.v
theories/PropClF2.v
theories/PropClF2Ex.v
