-Q theories Verif
theories/ModelBase.v
theories/ModelU128.v
theories/ModelField.v
theories/ModelUtils.v
theories/ModelPoly.v
theories/ModelVec.v
theories/ModelSerial.v
theories/ModelScheme.v
theories/ModelApi.v
theories/Spec.v
theories/Words.v
theories/U128Proofs.v
theories/FieldProofs.v
theories/ArithLemmas.v
theories/PropArith.v
theories/BytesProofs.v
theories/PolyProofs.v
theories/NttLayers.v
theories/NttTable.v
theories/NttProofs.v
theories/Cong.v
theories/NttEval.v
theories/ModelPolyChk.v
theories/NttBounds.v
theories/PolyLemmas.v
theories/PropPoly.v
theories/MaskedProofs.v
theories/LinProofs.v
theories/SampleProofs.v
theories/NoiseProofs.v
theories/MaskedLemmas.v
theories/ExOracle.v
theories/PropMasked.v
theories/SampleLemmas.v
theories/PropSample.v
theories/ParamProofs.v
theories/PropParams.v
theories/SpecScheme.v
theories/SpecSig.v
theories/PackProofs.v
theories/SkeyProofs.v
theories/KeyLemmas.v
theories/FinProofs.v
theories/ExGood.v
theories/KeyExamples.v
theories/PropKeys.v
theories/SigEnc.v
theories/SpecEnc.v
theories/EncExact.v
theories/SigDec.v
theories/SigDec2.v
theories/SigExact.v
theories/SigLemmas.v
theories/NormProofs.v
theories/PropSig.v
theories/SpecVerify.v
theories/SchemeCore.v
theories/VerifyProofs.v
theories/SignProofs.v
theories/SignVerify.v
theories/KeygenProofs.v
theories/SpecApi.v
theories/HistoryProofs.v
theories/HashLemmas.v
theories/FuelProofs.v
theories/TermProofs.v
theories/SignExact.v
theories/BoundProofs.v
theories/ExSign.v
theories/ExOver.v
theories/PropScheme.v
theories/ModelMem.v
theories/MemProofs.v
theories/MemKeys.v
theories/PropMem.v
theories/ModelLeak.v
theories/LeakProofs.v
theories/LeakRel.v
theories/LeakValues.v
theories/LeakSign.v
theories/ModelLeakSign.v
theories/LeakFull.v
theories/LeakPack.v
theories/PropLeak.v
theories/SpecMask.v
theories/MaskUniform.v
theories/MaskProg.v
theories/PropRefresh.v
theories/ModelMore.v
theories/MoreProofs.v
theories/PropMore.v
theories/SpecUniform.v
theories/UniformProofs.v
theories/ChalUniform.v
theories/NoiseUniform.v
theories/PropUniform.v
theories/SpecHash.v
theories/MaskIndep.v
theories/HashQueries.v
theories/PropEnc.v
theories/PropIndep.v
theories/SpecLattice.v
theories/LatticeProofs.v
theories/LatticeScheme.v
theories/ExLattice.v
theories/PropLattice.v
theories/SpecProbe.v
theories/ProbeCore.v
theories/ProbeProofs.v
theories/ProbeProg.v
theories/PropProbe.v
theories/MaskStream.v
theories/PropMaskStream.v
theories/SpecNoiseProbe.v
theories/NoiseProbe.v
theories/ProbeFull.v
theories/NoiseFull.v
theories/NoiseRun.v
theories/PropNoiseProbe.v
theories/ProbeLin.v
theories/SpecSchemeProbe.v
theories/LweProbe.v
theories/LweAdd.v
theories/LweRun.v
theories/PropSchemeProbe.v
theories/SpecSignProbe.v
theories/SignProbe.v
theories/SignLin.v
theories/SignSteps.v
theories/SignRun.v
theories/PropSignProbe.v
theories/PropRejection.v
theories/StrongForge.v
theories/ExForge.v
theories/PropForge.v
theories/HashExact.v
theories/KeyLayout.v
theories/PropPow2.v
theories/SpecReuse.v
theories/ReuseProofs.v
theories/ExReuse.v
theories/PropInterop.v
theories/PropReuse.v
theories/SpecTail.v
theories/CountProofs.v
theories/TailProofs.v
theories/PropTail.v
theories/SpecTailSign.v
theories/TailSign.v
theories/PropTailSign.v
theories/PropFill.v
theories/ModelTrace.v
theories/SpecTrace.v
theories/TraceProofs.v
theories/TraceSign.v
theories/PropCrash.v
theories/ModelSaveTrace.v
theories/SaveTraceProofs.v
theories/SaveLemmas.v
theories/PropSave.v
theories/PropLoad.v
theories/ModelConc.v
theories/ConcProofs.v
theories/ConcRefresh.v
theories/PropConc.v
theories/ModelAlias.v
theories/AliasLemmas.v
theories/PropAlias.v
theories/SeedLemmas.v
theories/PropSeed.v
theories/LawLemmas.v
theories/PropLaws.v
theories/ModelNative.v
theories/NativeProofs.v
theories/PropNative.v
