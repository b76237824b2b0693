-Q theories Verif
theories/Bytes.v
theories/BytesFacts.v
theories/Prims.v
theories/PrimsFacts.v
theories/CodecFacts.v
theories/TaggedHashes.v
theories/Errors.v
theories/SpecTags.v
theories/SpecBIP327.v
theories/KeyAgg.v
theories/Nonces.v
theories/Signature.v
theories/Signing.v
theories/SigAgg.v
theories/Bip340.v
theories/Rounds.v
theories/Deterministic.v
theories/Encoding.v
theories/SpecCtx.v
theories/KeyAggFacts.v
theories/KeyAggCodec.v
theories/SigningFacts.v
theories/SpecView.v
theories/SpecTaproot.v
theories/Sha256.v
theories/Toy.v
theories/SpecFacts.v
theories/SpecSigning.v
theories/ToyData.v
theories/ProofsKeyAgg.v
theories/PropertiesKeyAgg.v
theories/SpecSession.v
theories/SessionFacts.v
theories/SignatureFacts.v
theories/ProofsSigning.v
theories/PropertiesSigning.v
theories/ProofsAdaptor.v
theories/PropertiesAdaptor.v
theories/SpecBatch.v
theories/Bip340Facts.v
theories/ProofsBip340.v
theories/PropertiesBip340.v
theories/SpecRounds.v
theories/RoundsFacts.v
theories/ToyRounds.v
theories/ProofsRounds.v
theories/PropertiesRounds.v
theories/SpecNonces.v
theories/NoncesFacts.v
theories/ToyNonces.v
theories/ProofsNonces.v
theories/PropertiesNonces.v
theories/SpecHex.v
theories/EncodingFacts.v
theories/ProofsCodecs.v
theories/PropertiesCodecs.v
theories/SpecRfc6979.v
theories/ProofsDeterministic.v
theories/PropertiesDeterministic.v
theories/Primality.v
theories/SecpPrimes.v
theories/Curve.v
theories/Cyclic.v
theories/Secp256k1.v
theories/SpecSecp.v
theories/SpecReference.v
theories/SecpFacts.v
theories/ReferenceFacts.v
theories/ProofsSecp.v
theories/PropertiesSecp.v
theories/KeyAggNarrow.v
theories/ProofsLimits.v
theories/PropertiesLimits.v
theories/ProofsSecpLimits.v
theories/PropertiesSecpLimits.v
theories/ProofsReference.v
theories/PropertiesReference.v
theories/SpecHashing.v
theories/ProofsHashing.v
theories/PropertiesHashing.v
theories/ProofsComposition.v
theories/PropertiesComposition.v
theories/SpecMachine.v
theories/ToyHistories.v
theories/ProofsHistories.v
theories/PropertiesHistories.v
theories/ProofsTotality.v
theories/PropertiesTotality.v
theories/Conversions.v
theories/ProofsConversions.v
theories/PropertiesConversions.v
theories/Messages.v
theories/ProofsMessages.v
theories/PropertiesMessages.v
theories/ProofsSoundness.v
theories/PropertiesSoundness.v
theories/ProofsAgreement.v
theories/PropertiesAgreement.v
theories/Seeds.v
theories/SpecSeeds.v
theories/ProofsSeeds.v
theories/PropertiesSeeds.v
theories/Order.v
theories/SpecOrder.v
theories/SpecExtract.v
theories/ToyExtract.v
theories/ProofsExtraction.v
theories/PropertiesExtraction.v
theories/SpecSimulate.v
theories/ProofsSimulation.v
theories/PropertiesSimulation.v
theories/SpecSingle.v
theories/ProofsSingle.v
theories/PropertiesSingle.v
theories/SpecNetwork.v
theories/ToyNetwork.v
theories/ProofsNetwork.v
theories/PropertiesNetwork.v
theories/ProofsOrder.v
theories/PropertiesOrder.v
theories/ProofsBias.v
theories/PropertiesBias.v
theories/ToyBlame.v
theories/ProofsBlame.v
theories/PropertiesBlame.v
theories/ProofsRare.v
theories/PropertiesRare.v
theories/ToyAggregator.v
theories/ProofsAggregator.v
theories/PropertiesAggregator.v
theories/ProofsGuess.v
theories/PropertiesGuess.v
theories/SpecReuse.v
theories/ToyReuse.v
theories/ProofsReuse.v
theories/PropertiesReuse.v
theories/ControlFlow.v
theories/SpecFlow.v
theories/ToyFlow.v
theories/ProofsFlow.v
theories/PropertiesFlow.v
theories/ControlFlowRounds.v
theories/SpecWatch.v
theories/ToyWatch.v
theories/ProofsWatch.v
theories/PropertiesWatch.v
theories/SpecDecode.v
theories/ProofsDecode.v
theories/PropertiesDecode.v
theories/SpecFork.v
theories/ForkFacts.v
theories/ToyFork.v
theories/ProofsFork.v
theories/PropertiesFork.v
theories/ProofsGroupFork.v
theories/PropertiesGroupFork.v
theories/ProofsSecondFork.v
theories/PropertiesSecondFork.v
theories/SpecAlgebra.v
theories/ToyAlgebra.v
theories/ProofsAlgebra.v
theories/PropertiesAlgebra.v
theories/SpecErrors.v
theories/ToyErrors.v
theories/ProofsErrorTable.v
theories/PropertiesErrorTable.v
theories/SpecMixing.v
theories/ToyMixing.v
theories/ProofsMixing.v
theories/PropertiesMixing.v
theories/SpecWire.v
theories/ToyWire.v
theories/ProofsWire.v
theories/PropertiesWire.v
theories/SpecPresign.v
theories/ToyPresign.v
theories/ProofsPresign.v
theories/PropertiesPresign.v
theories/SpecConcurrent.v
theories/ToyConcurrent.v
theories/ProofsConcurrent.v
theories/PropertiesConcurrent.v
theories/SpecCollision.v
theories/ToyCollision.v
theories/ProofsCollision.v
theories/PropertiesCollision.v
theories/SpecBatchForger.v
theories/ToyBatchForger.v
theories/ProofsBatchForger.v
theories/PropertiesBatchForger.v
theories/SpecFresh.v
theories/ToyFresh.v
theories/ProofsFresh.v
theories/PropertiesFresh.v
theories/SpecCommit.v
theories/ToyCommit.v
theories/ProofsCommit.v
theories/PropertiesCommit.v
theories/SpecSolo.v
theories/ToySolo.v
theories/ProofsSolo.v
theories/PropertiesSolo.v
theories/SpecDet.v
theories/ToyDet.v
theories/ProofsDet.v
theories/PropertiesDet.v
theories/SpecBind.v
theories/ToyBind.v
theories/ProofsBind.v
theories/PropertiesBind.v
theories/SpecPrebind.v
theories/ToyPrebind.v
theories/ProofsPrebind.v
theories/PropertiesPrebind.v
theories/SpecFinal.v
theories/ToyFinal.v
theories/ProofsFinal.v
theories/PropertiesFinal.v
theories/SpecGroupKey.v
theories/ToyGroupKey.v
theories/ProofsGroupKey.v
theories/PropertiesGroupKey.v
theories/SpecGroupTap.v
theories/ToyGroupTap.v
theories/ProofsGroupTap.v
theories/PropertiesGroupTap.v
theories/SpecAim.v
theories/ToyAim.v
theories/ProofsAim.v
theories/PropertiesAim.v
theories/SpecTapAim.v
theories/ToyTapAim.v
theories/ProofsTapAim.v
theories/PropertiesTapAim.v
theories/ProofsTweakBind.v
theories/PropertiesTweakBind.v
theories/ProofsLastNonce.v
theories/PropertiesLastNonce.v
