-Q theories Verif
theories/Prelude.v
theories/Field.v
theories/LinAlg.v
theories/Msp.v
theories/Spec.v
theories/MspProofs.v
theories/Minimal.v
theories/Gauss.v
theories/GaussProofs.v
theories/Bilinear.v
theories/Scheme.v
theories/SchemeSpec.v
theories/SchemeProofs.v
theories/SchemeTheorems.v
theories/MspTheorems.v
theories/Primality.v
theories/Zp.v
theories/ExpModel.v
theories/PropertiesScheme.v
theories/Codec.v
theories/SchemeCodec.v
theories/CodecProofs.v
theories/SchemeCodecProofs.v
theories/PropertiesCodec.v
theories/PropertiesPrograms.v
theories/Bls.v
theories/PropertiesBls.v
theories/Parser.v
theories/ParserSpec.v
theories/ParserProofs.v
theories/PropertiesParser.v
theories/Policy.v
theories/PolicySpec.v
theories/PolicyProofs.v
theories/Engine.v
theories/EngineSpec.v
theories/EngineProofs.v
theories/PropertiesEngine.v
theories/Hybrid.v
theories/HybridSpec.v
theories/PropertiesHybrid.v
theories/Ffi.v
theories/FfiSpec.v
theories/PropertiesFfi.v
theories/FfiCache.v
theories/CacheSpec.v
theories/PropertiesCache.v
theories/PropertiesFfiBlocks.v
theories/PropertiesVersions.v
theories/Properties32.v
theories/PropertiesCanonical.v
theories/Wasm.v
theories/PropertiesWasm.v
theories/Python.v
theories/PropertiesPython.v
theories/PropertiesDelegation.v
theories/CollusionSpec.v
theories/PropertiesCollusion.v
theories/PropertiesTamper.v
theories/Curve.v
theories/PropertiesCurve.v
theories/PropertiesLeaks.v
theories/FfiErrors.v
theories/PropertiesErrors.v
theories/Display.v
theories/PropertiesDisplay.v
theories/FfiRaw.v
theories/PropertiesFfiRaw.v
theories/PropertiesResource.v
theories/PropertiesPersonal.v
theories/PropertiesStack.v
theories/LuckSpec.v
theories/PropertiesLuck.v
theories/CopiesSpec.v
theories/PropertiesCopies.v
theories/PropertiesHostileKeys.v
theories/GameSpec.v
theories/PropertiesGame.v
theories/PropertiesHostileDecrypt.v
theories/PropertiesFfiHostile.v
theories/ManySpec.v
theories/PropertiesMany.v
theories/PropertiesPyHostile.v
theories/PropertiesWasmHostile.v
theories/HashSpec.v
theories/PropertiesHash.v
theories/PropertiesSolver.v
theories/ReductionSpec.v
theories/PropertiesReduction.v
theories/RepoTests.v
theories/SealSpec.v
theories/PropertiesSeal.v
theories/PropertiesDraws.v
theories/PropertiesTogether.v
theories/PropertiesDepth.v
theories/PropertiesSizes.v
theories/PropertiesAltered.v
theories/PropertiesWork.v
theories/AdaptiveSpec.v
theories/PropertiesAdaptive.v
theories/PropertiesBuilds.v
theories/HistorySpec.v
theories/PropertiesHistory.v
theories/PropertiesWorking.v
theories/Demo.v
theories/PyDemo.v
theories/PropertiesDemo.v
theories/PropertiesSmallest.v
theories/PropertiesKinds.v
theories/PropertiesLive.v
theories/PropertiesPyDemo.v
theories/PropertiesLiveAll.v
theories/Notebook.v
theories/PropertiesNotebook.v
theories/ErrorTexts.v
theories/PropertiesErrorTexts.v
theories/PropertiesLiveMore.v
theories/TestPrograms.v
theories/PropertiesTests.v
theories/FfiTestPrograms.v
theories/PropertiesFfiTests.v
theories/PropertiesReuse.v
theories/Memory.v
theories/PropertiesMemory.v
theories/PropertiesWhy.v
theories/Cost.v
theories/PropertiesCost.v
theories/PropertiesReadme.v
theories/PropertiesEdits.v
theories/PropertiesPower.v
theories/PropertiesEditsC.v
