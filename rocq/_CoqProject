-Q theories Verif
theories/PyBase.v
theories/PyDict.v
theories/MatBase.v
theories/SpecMat.v
theories/MMaterial.v
theories/SpecMaterial.v
theories/LMaterial.v
theories/MShaft.v
theories/LMat.v
theories/SpecBeam.v
theories/LQuad.v
theories/SpecShaft.v
theories/LShaft.v
theories/LShaftEnergy.v
theories/LShaftProps.v
theories/LShaft6.v
theories/LShaftEx.v
theories/PropShaft.v
theories/PropMaterial.v
theories/MDisk.v
theories/SpecDisk.v
theories/LDisk.v
theories/PropDisk.v
theories/MUnits.v
theories/SpecUnits.v
theories/LUnits.v
theories/PropUnits.v
theories/MBearing.v
theories/SpecBearing.v
theories/LBearing.v
theories/LBearing2.v
theories/PropBearing.v
theories/MRotor.v
theories/SpecRotor.v
theories/LAssembly.v
theories/LRotor.v
theories/LRotor2.v
theories/LRotorPos.v
theories/LRotor3.v
theories/LRotor4.v
theories/LRotor5.v
theories/LRotorInit.v
theories/LRotorInit2.v
theories/LRotor6.v
theories/LRotor7.v
theories/LRotorEx.v
theories/PropRotor.v
theories/LSolve.v
theories/CMat.v
theories/LCMat.v
theories/MDynamics.v
theories/SpecDynamics.v
theories/LDynamics.v
theories/LStability.v
theories/LTransfer.v
theories/LDynEx.v
theories/LModes.v
theories/LResponse.v
theories/LDynEx2.v
theories/PropDynamics.v
theories/MTime.v
theories/SpecTime.v
theories/LTime.v
theories/LTime2.v
theories/LTime3.v
theories/PropTime.v
theories/MFault.v
theories/SpecFault.v
theories/LFault.v
theories/LFault2.v
theories/LFault3.v
theories/PropFault.v
theories/PropCrack.v
theories/MResults.v
theories/SpecResults.v
theories/LResults.v
theories/LResults2.v
theories/LResults3.v
theories/LResults4.v
theories/PropOrbit.v
theories/LResults5.v
theories/PropProbe.v
theories/LResults6.v
theories/PropShape.v
theories/LResults7.v
theories/SpecUtils.v
theories/LResults8.v
theories/PropUtils.v
theories/MSection.v
theories/LRotorInit3.v
theories/SpecSection.v
theories/LSection.v
theories/LSection2.v
theories/LSection3.v
theories/LSection4.v
theories/LSection5.v
theories/LSection6.v
theories/PropSection.v
theories/MStatic.v
theories/SpecStatic.v
theories/LStatic.v
theories/LStatic2.v
theories/LStatic3.v
theories/LStatic4.v
theories/LStatic5.v
theories/LStatic6.v
theories/LStatic7.v
theories/PropStatic.v
theories/MFluid.v
theories/SpecFluid.v
theories/LFluid.v
theories/LFluid2.v
theories/LFluid3.v
theories/LFluid4.v
theories/MCyl.v
theories/LFluid5.v
theories/LFluid6.v
theories/PropFluid.v
theories/PropFluid2.v
theories/SpecFilm.v
theories/LFluid7.v
theories/LFluid8.v
theories/PropFluid3.v
theories/LFluid9.v
theories/PropFluid4.v
theories/MTable.v
theories/SpecTable.v
theories/LTable.v
theories/LTable2.v
theories/LTable3.v
theories/LTable4.v
theories/PropTable.v
theories/MStoch.v
theories/SpecStoch.v
theories/LStoch.v
theories/LStoch2.v
theories/LStoch3.v
theories/PropStoch.v
theories/PropStoch2.v
theories/LStatic8.v
theories/PropStatic2.v
theories/SpecUnits2.v
theories/PropUnits2.v
theories/MShare.v
theories/SpecShare.v
theories/LShare.v
theories/LShare2.v
theories/LShare3.v
theories/PropShare.v
theories/MSave.v
theories/SpecSave.v
theories/LSave.v
theories/LSave2.v
theories/LSave3.v
theories/LSave4.v
theories/PropSave.v
theories/SpecSync.v
theories/LSync.v
theories/LSyncEx.v
theories/PropSync.v
theories/MModal.v
theories/SpecModal.v
theories/LModal.v
theories/LModalEx.v
theories/PropModal.v
theories/MUcs.v
theories/SpecUcs.v
theories/LUcs.v
theories/LUcsEx.v
theories/PropUcs.v
theories/MCoax.v
theories/SpecCoax.v
theories/LCoax.v
theories/LCoax2.v
theories/LCoax3.v
theories/LCoax4.v
theories/LCoax5.v
theories/LCoax6.v
theories/PropCoax.v
theories/MEq.v
theories/SpecEq.v
theories/LEq.v
theories/LEq2.v
theories/LEq3.v
theories/LEq4.v
theories/LEq5.v
theories/LEq6.v
theories/PropEq.v
theories/MPseudo.v
theories/SpecPseudo.v
theories/LPseudo.v
theories/LPseudo2.v
theories/LSpectral.v
theories/PropPseudo.v
theories/SpecLsim.v
theories/LExpm.v
theories/LExpm2.v
theories/MLsim.v
theories/LLsim.v
theories/LLsim2.v
theories/LLsim3.v
theories/PropLsim.v
theories/MRes.v
theories/SpecRes.v
theories/LRes.v
theories/PropRes.v
theories/MThd.v
theories/SpecThd.v
theories/LThd.v
theories/LThd2.v
theories/PropThd.v
theories/PropThdFilm.v
theories/MRossOnly.v
theories/SpecRossOnly.v
theories/LRossOnly.v
theories/PropRossOnly.v
theories/MFluidBrg.v
theories/MBrgTable.v
theories/SpecBrgTable.v
theories/LBrgTable.v
theories/PropFluidBrg.v
theories/PropBrgTable.v
theories/MWarn.v
theories/SpecWarn.v
theories/LWarn.v
theories/PropWarn.v
theories/MSummary.v
theories/SpecSummary.v
theories/LSummary.v
theories/PropSummary.v
theories/MSaveMat.v
theories/SpecSaveMat.v
theories/PropSaveMat.v
theories/MConvert.v
theories/SpecConvert.v
theories/PropConvert.v
