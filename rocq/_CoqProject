-Q theories Verif
theories/Field.v
theories/Go.v
theories/MCommon.v
theories/Spec.v
theories/MPoly.v
theories/LSpec.v
theories/LCommon.v
theories/LPoly.v
theories/LEffect.v
theories/LPoly2.v
theories/FrPrime.v
theories/Fr.v
theories/LPoly3.v
theories/PPoly.v
theories/Trans.v
theories/MForkJoin.v
theories/LForkJoin.v
theories/MSem.v
theories/LSem.v
theories/MHeap.v
theories/SpecHeap.v
theories/LHeap.v
theories/LHeap2.v
theories/LHeap3.v
theories/PPar.v
theories/MCircuit.v
theories/SpecCircuit.v
theories/LCircuit.v
theories/LCircuit2.v
theories/LCircuit3.v
theories/LDegree.v
theories/PCircuit.v
theories/MSumcheck.v
theories/LSumcheck.v
theories/LSumcheck2.v
theories/SpecSumcheck.v
theories/LSumcheck3.v
theories/LSumcheck4.v
theories/LSumcheck5.v
theories/PSumcheck.v
theories/MSumPar.v
theories/LSumPar.v
theories/LSumPar2.v
theories/SpecSumPar.v
theories/LSumPar3.v
theories/LSumPar4.v
theories/PSumPar.v
theories/MGkr.v
theories/SpecGkr.v
theories/LGkr.v
theories/LGkr2.v
theories/LGkr3.v
theories/LGkr4.v
theories/LGkr5.v
theories/LGkr6.v
theories/LGkr7.v
theories/PGkr.v
theories/MArk.v
theories/MHash.v
theories/SpecHash.v
theories/LHash.v
theories/LHash2.v
theories/LHash3.v
theories/LHash4.v
theories/PHash.v
theories/MSnark.v
theories/SpecSnark.v
theories/LSnark.v
theories/LSnark2.v
theories/LSnark3.v
theories/LSnark4.v
theories/LSnark5.v
theories/LSnark6.v
theories/LSnark7.v
theories/LSnark8.v
theories/LSnark9.v
theories/LSnark10.v
theories/LGrid.v
theories/LSnark11.v
theories/PSnark.v
theories/MSumHeap.v
theories/SpecSumHeap.v
theories/LSumHeap.v
theories/LSumHeap2.v
theories/LSumHeap3.v
theories/MGkrHeap.v
theories/SpecGkrHeap.v
theories/LGkrHeap.v
theories/PHeap.v
theories/MString.v
theories/SpecString.v
theories/LString.v
theories/PString.v
theories/SpecRace.v
theories/LRace.v
theories/LRace2.v
theories/PRace.v
theories/MTesting.v
theories/LTesting.v
theories/PTesting.v
theories/MEnv.v
theories/LEnv.v
theories/PEnv.v
theories/MVerHeap.v
theories/SpecVerHeap.v
theories/LVerHeap.v
theories/PVerHeap.v
theories/LForge.v
theories/LForge2.v
theories/LZeroHash.v
theories/LForge3.v
theories/PForge.v
theories/SpecInter.v
theories/LInter.v
theories/LInter2.v
theories/LInter3.v
theories/PInter.v
theories/MInit.v
theories/LInit.v
theories/PInit.v
theories/MAux.v
theories/SpecAux.v
theories/LAux.v
theories/PAux.v
theories/MGnarkTests.v
theories/SpecGnarkTests.v
theories/LGnarkTests.v
theories/LGnarkTests2.v
theories/PGnarkTests.v
theories/MTests.v
theories/LTests.v
theories/LTests2.v
theories/PTests.v
theories/MBench.v
theories/LBench.v
theories/PBench.v
theories/MInt.v
theories/SpecInt.v
theories/LInt.v
theories/LInt2.v
theories/PInt.v
theories/SpecInt2.v
theories/MInt2.v
theories/LInt3.v
theories/PInt2.v
theories/SpecTests.v
theories/LTests3.v
theories/PTests2.v
theories/SpecSize.v
theories/LSize.v
theories/LSize2.v
theories/PSize.v
theories/MHashHeap.v
theories/SpecHashHeap.v
theories/LHashHeap.v
theories/LHashHeap2.v
theories/LHashHeap3.v
theories/PHashHeap.v
theories/SpecProof.v
theories/LProof.v
theories/LProof2.v
theories/PProof.v
theories/SpecUnique.v
theories/LUnique.v
theories/LUnique2.v
theories/LUnique3.v
theories/LUnique4.v
theories/LUnique5.v
theories/LUnique6.v
theories/PUnique.v
theories/MRepair.v
theories/SpecRepair.v
theories/LRepair.v
theories/LRepair2.v
theories/LRepair3.v
theories/LRepair4.v
theories/LRepair5.v
theories/PRepair.v
theories/LPoint.v
theories/PPoint.v
theories/SpecFit.v
theories/LFit.v
theories/LFit2.v
theories/PFit.v
theories/SpecLayers.v
theories/LLayers.v
theories/PLayers.v
theories/MFiat.v
theories/SpecFiat.v
theories/LFiat.v
theories/LFiat2.v
theories/LFiat3.v
theories/LFiat4.v
theories/LFiat5.v
theories/PFiat.v
theories/SpecDomain.v
theories/LDomain.v
theories/PDomain.v
theories/SpecVerdict.v
theories/LVerdict.v
theories/PVerdict.v
theories/SpecEnds.v
theories/LEnds.v
theories/LEnds2.v
theories/LEnds3.v
theories/LEnds4.v
theories/LEnds5.v
theories/PEnds.v
theories/SpecHonest.v
theories/LHonest.v
theories/LHonest2.v
theories/LHonest3.v
theories/LHonest4.v
theories/PHonest.v
theories/SpecSnarkHeap.v
theories/MSnarkHeap.v
theories/LSnarkHeap.v
theories/PSnarkHeap.v
theories/SpecRun.v
theories/LRun.v
theories/LRun2.v
theories/PRun.v
theories/MGadget.v
theories/SpecGadget.v
theories/LGadget.v
theories/LGadget2.v
theories/LGadget3.v
theories/PGadget.v
theories/MFront.v
theories/SpecFront.v
theories/LFront.v
theories/LFront2.v
theories/LFront3.v
theories/PFront.v
theories/SpecAsk.v
theories/LAsk.v
theories/PAsk.v
theories/MCost.v
theories/SpecCost.v
theories/LCost.v
theories/LCost2.v
theories/LCost3.v
theories/LCost4.v
theories/LCost5.v
theories/PCost.v
theories/MCost2.v
theories/SpecCost2.v
theories/LCost6.v
theories/LCost7.v
theories/LCost8.v
theories/LCost9.v
theories/PCost2.v
theories/MCost3.v
theories/SpecCost3.v
theories/LCost10.v
theories/LCost11.v
theories/PCost3.v
theories/MCost4.v
theories/SpecCost4.v
theories/LCost12.v
theories/PCost4.v
theories/MCost5.v
theories/SpecCost5.v
theories/LCost13.v
theories/LCost14.v
theories/LCost15.v
theories/PCost5.v
