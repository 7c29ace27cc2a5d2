-Q theories Verif
theories/Base.v
theories/BaseFacts.v
theories/SpecCommon.v
theories/Hasher.v
theories/Gen.v
theories/GenMD.v
theories/ModelMd5.v
theories/ModelSha1.v
theories/ModelRipemd.v
theories/ModelSha2.v
theories/SpecMd5.v
theories/SpecSha1.v
theories/SpecRipemd.v
theories/SpecSha2.v
theories/Words.v
theories/ProofMd5.v
theories/ProofSha1.v
theories/ProofRipemd.v
theories/ProofSha2.v
theories/GenBlk.v
theories/SpecSip.v
theories/ModelSip.v
theories/ProofSip.v
theories/Loops.v
theories/SpecXxh.v
theories/ModelXxh.v
theories/ProofXxh.v
theories/SpecFnv.v
theories/ModelFnv.v
theories/ProofFnv.v
theories/FnvPeriod.v
theories/ProofFnvPeriod.v
theories/SpecMurmur.v
theories/ModelMurmur.v
theories/ProofMurmur.v
theories/Bits.v
theories/ProofMurmurDistinct.v
theories/SpecSpooky.v
theories/ModelSpooky.v
theories/ProofSpookyMix.v
theories/ProofSpooky.v
theories/SpecHmac.v
theories/ModelHmac.v
theories/ProofHmac.v
theories/ProofHmacInst.v
theories/Types.v
theories/ModelResult.v
theories/ModelAppend.v
theories/SpecAppend.v
theories/ProofMsg.v
theories/ProofAppend.v
theories/Behaves.v
theories/Instances.v
theories/ProofMsgEq.v
theories/ProofMsgExt.v
theories/ProofRuns.v
theories/Samples.v
theories/PropsHistory.v
theories/Tests.v
theories/Tests2.v
theories/PropsAppend.v
theories/PropsTraits.v
theories/PropsAlg.v
theories/PropsSeeds.v
theories/ProofObj.v
theories/PropsResults.v
theories/PropsIntegral.v
theories/ModelDigest.v
theories/PropsDigest.v
theories/PropsPrims.v
theories/PropsExtra.v
theories/ProofFloat.v
theories/PropsFloat.v
theories/ModelDispatch.v
theories/PropsDispatch.v
theories/PropsSpooky.v
theories/PropsConstants.v
theories/UserAlg.v
theories/PropsUser.v
theories/PropsUserHmac.v
theories/ProofRange.v
theories/ModelExamples.v
theories/PropsObjects.v
theories/PropsTools.v
theories/PropsLong.v
theories/ProofUnfold.v
theories/PropsInvoke.v
theories/ProofLocal.v
theories/PropsLocal.v
theories/PropsLocal64.v
theories/PropsLocalKeys.v
theories/PropsFlood.v
theories/ProofReduce.v
theories/PropsReduce.v
theories/PropsRepeat.v
theories/PropsCrowd.v
theories/PropsFix.v
theories/PropsMany.v
theories/PropsExtend.v
theories/PropsReveal.v
theories/PropsZero.v
theories/PropsEven.v
theories/PropsUserAppend.v
theories/PropsFnvSets.v
theories/ModelBench.v
theories/PropsBench.v
theories/PropsDocs.v
theories/ProofMerge.v
theories/PropsMerge.v
theories/ProofFnvRuns.v
theories/PropsFnvRuns.v
theories/PropsCtors.v
theories/PropsCount.v
theories/PropsUnord.v
theories/PropsBalance.v
theories/PropsSeeds32.v
theories/PropsForever.v
theories/PropsRandom.v
theories/PropsAnywhere.v
theories/PropsFlavors.v
theories/PropsSets.v
theories/PropsUserObjects.v
theories/PropsUserSets.v
theories/PropsCalls.v
theories/PropsUpdates.v
theories/PropsLocalHistory.v
theories/PropsEvenHistory.v
theories/ModelIter.v
theories/PropsIter.v
theories/ModelThrow.v
theories/ProofThrow.v
theories/PropsThrow.v
theories/ModelThrowAlg.v
theories/ProofThrowAlg1.v
theories/ProofThrowAlg2.v
theories/PropsThrowAlg.v
theories/ProofTails.v
theories/PropsTails.v
theories/ProofWindow.v
theories/PropsWindow.v
theories/ModelThrowBoth.v
theories/ProofThrowBoth1.v
theories/ProofThrowBoth2.v
theories/ProofThrowBoth3.v
theories/ProofThrowBoth4.v
theories/PropsThrowBoth.v
theories/PropsLowBits.v
theories/Assumptions.v
