-Q theories Verif
theories/SpecBox.v
theories/SpecDist.v
theories/MBase.v
theories/MDist.v
theories/SpecWf.v
theories/LRadix.v
theories/LAxis.v
theories/LDist.v
theories/LDist2.v
theories/LDist3.v
theories/PDist.v
theories/MDecomp.v
theories/LDecomp.v
theories/PDecomp.v
theories/SpecStore.v
theories/MIter.v
theories/MAlloc.v
theories/LTile.v
theories/SpecHome.v
theories/LIterReg.v
theories/LIterReg2.v
theories/LIterReg3.v
theories/LIterBlk.v
theories/LIterBC.v
theories/LIterSL.v
theories/LIterSca.v
theories/LStore.v
theories/PIter.v
theories/PIterBlk.v
theories/PStore.v
theories/SpecXfer.v
theories/MXfer.v
theories/LXfer.v
theories/LXfer2.v
theories/PXfer.v
theories/MAccess.v
theories/LAccess.v
theories/PAccess.v
theories/MRmw.v
theories/SpecElem.v
theories/LRmw.v
theories/PRmw.v
theories/MGat.v
theories/LGat.v
theories/PGat.v
theories/SpecStrided.v
theories/MStrided.v
theories/LStrided.v
theories/LStrided2.v
theories/PStrided.v
theories/SpecPeri.v
theories/MPeri.v
theories/LPeri.v
theories/PPeri.v
theories/MNb.v
theories/LNb.v
theories/PNb.v
theories/SpecCopy.v
theories/MOdo.v
theories/LOdo.v
theories/POdo.v
theories/MComex.v
theories/LComex.v
theories/PComex.v
theories/SpecCache.v
theories/MCache.v
theories/LCache.v
theories/PCache.v
theories/MFence.v
theories/LFence.v
theories/PFence.v
theories/MNotify.v
theories/LNotify.v
theories/PNotify.v
theories/SpecHandle.v
theories/MHandle.v
theories/LHandle.v
theories/LHandle2.v
theories/LHandle3.v
theories/PHandle.v
theories/MLock.v
theories/SpecLock.v
theories/LLock.v
theories/PLock.v
theories/SpecGroup.v
theories/MGroup.v
theories/LGroup.v
theories/LGroup2.v
theories/PGroup.v
theories/SpecType.v
theories/MType.v
theories/PType.v
theories/MIrreg.v
theories/PIrreg.v
theories/SpecRanks.v
theories/MRanks.v
theories/LRanks.v
theories/LRanks2.v
theories/LRanks3.v
theories/PRanks.v
theories/SpecReg.v
theories/MReg.v
theories/LReg.v
theories/LReg2.v
theories/LReg3.v
theories/PReg.v
theories/SpecSparse.v
theories/MSparse.v
theories/LLine.v
theories/LSparse.v
theories/LSparse2.v
theories/LSparse3.v
theories/PSparse.v
theories/SpecSort.v
theories/MSort.v
theories/LSort.v
theories/PSort.v
theories/SpecBin.v
theories/MBin.v
theories/LBin.v
theories/LBin2.v
theories/PBin.v
theories/MLoc.v
theories/SpecLoc.v
theories/LLoc.v
theories/PLoc.v
theories/SpecSelect.v
theories/MSelect.v
theories/LSelect.v
theories/LSelect2.v
theories/PSelect.v
theories/SpecGhost.v
theories/MGhost.v
theories/LGhost.v
theories/LGhost2.v
theories/LGhost3.v
theories/LGhost4.v
theories/LGhost5.v
theories/LGhost6.v
theories/LGhost7.v
theories/PGhost.v
theories/MNet.v
theories/LNet.v
theories/LNet2.v
theories/PNet.v
theories/SpecMa.v
theories/MMa.v
theories/LMa.v
theories/LMaH.v
theories/LMaT.v
theories/LMaS.v
theories/LMaS2.v
theories/LMaS3.v
theories/LMaQ.v
theories/PMa.v
theories/SpecGcopy.v
theories/MGcopy.v
theories/LGcopy.v
theories/LGcopy2.v
theories/LGcopy3.v
theories/LGcopy4.v
theories/LGcopy5.v
theories/PGcopy.v
theories/SpecCpatch.v
theories/MCpatch.v
theories/LCpatch.v
theories/LCpatch2.v
theories/LCpatch3.v
theories/LCpatch4.v
theories/PCpatch.v
theories/SpecPw.v
theories/MPw.v
theories/LLab.v
theories/LPw.v
theories/LPw2.v
theories/PPw.v
theories/SpecAdd.v
theories/MAdd.v
theories/LAdd.v
theories/LAdd2.v
theories/LAdd3.v
theories/LAdd4.v
theories/PAdd.v
theories/SpecDot.v
theories/MDot.v
theories/LDot.v
theories/PDot.v
theories/SpecDiag.v
theories/MDiag.v
theories/LDiag.v
theories/PDiag.v
theories/SpecNorm.v
theories/MNorm.v
theories/LNorm.v
theories/PNorm.v
theories/SpecZip.v
theories/MZip.v
theories/LZip.v
theories/LZip2.v
theories/LZip3.v
theories/PElem.v
theories/LZip4.v
theories/PMed.v
theories/SpecUn.v
theories/MUn.v
theories/LUn.v
theories/PUn.v
theories/SpecStep.v
theories/MStep.v
theories/LStep.v
theories/PStep.v
theories/SpecSym.v
theories/MSym.v
theories/LSym.v
theories/PSym.v
theories/SpecMat.v
theories/MMat.v
theories/LMat.v
theories/LMat2.v
theories/PMat.v
theories/SpecDgemm.v
theories/MDgemm.v
theories/LDgemm.v
theories/LDgemm2.v
theories/LDgemm3.v
theories/LDgemm4.v
theories/PDgemm.v
theories/SpecSprs.v
theories/MSprs.v
theories/LSprs.v
theories/LSprs2.v
theories/LSprs3.v
theories/LSprs4.v
theories/LSprs5.v
theories/PSprs.v
theories/MSprs2.v
theories/SpecSprs3.v
theories/MSprs3.v
theories/LSprs6.v
theories/PSprs2.v
theories/LSprs7.v
theories/LSprs8.v
theories/LSprs9.v
theories/PSprs3.v
theories/SpecSprs4.v
theories/MSprs4.v
theories/LSprs10.v
theories/PSprs4.v
theories/MSprs5.v
theories/LSprs11.v
theories/PSprs5.v
theories/SpecSprs5.v
theories/MSprs6.v
theories/LSprs12.v
theories/PSprs6.v
theories/MSprs7.v
theories/LSprs13.v
theories/PSprs7.v
theories/SpecSprs6.v
theories/MSprs8.v
theories/LSprs14.v
theories/PSprs8.v
theories/MGalloc.v
theories/PGalloc.v
theories/MSprs9.v
theories/PSprs9.v
theories/PGat2.v
