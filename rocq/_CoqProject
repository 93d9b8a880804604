-Q theories Verif
theories/AngleProofs.v
theories/AngularIntegral.v
theories/AngularProofs.v
theories/AutogradEnd.v
theories/AutogradProofs.v
theories/AutogradSpec.v
theories/BatchProofs.v
theories/BatchReal.v
theories/BesselAlgos.v
theories/BesselFinal.v
theories/BesselLimits.v
theories/BesselMinimal.v
theories/BesselPi.v
theories/BesselProofs.v
theories/BesselSpec.v
theories/BesselTrue.v
theories/BroadcastProofs.v
theories/BroadcastSpec.v
theories/BundledEnd.v
theories/BundledPartSpec.v
theories/BundledProofs.v
theories/BundledSpec.v
theories/CLemmas.v
theories/CTrig.v
theories/CenterDiff.v
theories/ComplexDiff.v
theories/ConvergeSpec.v
theories/DepthEnd.v
theories/DepthProofs.v
theories/DepthShallow.v
theories/DepthSpec.v
theories/DepthWitness.v
theories/ExampleAutograd.v
theories/ExampleBatch.v
theories/ExampleBundled.v
theories/ExampleGrad.v
theories/ExampleGradMat.v
theories/ExampleGradNear.v
theories/ExampleJn.v
theories/ExampleMaterial.v
theories/ExampleMaxwell.v
theories/ExampleMirror.v
theories/ExampleNear.v
theories/ExampleParticle.v
theories/ExampleParticleNear.v
theories/ExampleSolve.v
theories/ExampleSplit.v
theories/ExampleStack.v
theories/ExampleTg.v
theories/ExampleTrue.v
theories/FarFieldProofs.v
theories/FarZone.v
theories/FarZoneSpec.v
theories/GeomProofs.v
theories/GeomSpec.v
theories/GpmEnd.v
theories/GpmProofs.v
theories/GpmSpec.v
theories/GradEnd.v
theories/GradMatEnd.v
theories/GradMatNode.v
theories/GradMatProofs.v
theories/GradMatSpec.v
theories/GradNear.v
theories/GradNearEnd.v
theories/GradNearSpec.v
theories/GradObs.v
theories/GradOps.v
theories/GradPena.v
theories/GradPoint.v
theories/GradSpec.v
theories/GradStack.v
theories/GradTorch.v
theories/GradTorchEnd.v
theories/GradTorchSpec.v
theories/IllumProofs.v
theories/InterpProofs.v
theories/JnProofs.v
theories/LegacyProofs.v
theories/LogdirDead.v
theories/LogdirProofs.v
theories/MaterialProofs.v
theories/MaterialSpec.v
theories/MaxwellFields.v
theories/MaxwellLimitSpec.v
theories/MaxwellProofs.v
theories/MaxwellSpec.v
theories/MirrorEnd.v
theories/MirrorProofs.v
theories/MirrorSpec.v
theories/ModelAutograd.v
theories/ModelBatch.v
theories/ModelBundled.v
theories/ModelGeom.v
theories/ModelGpm.v
theories/ModelGrad.v
theories/ModelGradMat.v
theories/ModelGradNear.v
theories/ModelGradTorch.v
theories/ModelJn.v
theories/ModelLogdir.v
theories/ModelMaterial.v
theories/ModelMie.v
theories/ModelNear.v
theories/ModelNearLegacy.v
theories/ModelNearPena.v
theories/ModelObs.v
theories/ModelParticle.v
theories/ModelParticleNear.v
theories/ModelRound.v
theories/ModelRoundNear.v
theories/ModelRoundTorch.v
theories/ModelSolve.v
theories/ModelSpecial.v
theories/ModelSupport.v
theories/ModelTg.v
theories/NearExact.v
theories/NearField.v
theories/NearFieldLimit.v
theories/NearJump.v
theories/NearLegacyCall.v
theories/NearLegacyEval.v
theories/NearLegacyProofs.v
theories/NearLegacySpec.v
theories/NearLimit.v
theories/NearLimitSpec.v
theories/NearPenaAmps.v
theories/NearPenaCall.v
theories/NearPenaEval.v
theories/NearPenaRegion.v
theories/NearPenaVsh.v
theories/NearProofs.v
theories/NearSpec.v
theories/ObsProofs.v
theories/Ops.v
theories/ParticleEnd.v
theories/ParticleFull.v
theories/ParticleHist.v
theories/ParticleNear.v
theories/ParticleProofs.v
theories/ParticleRun.v
theories/ParticleSpec.v
theories/Passive.v
theories/PassiveCode.v
theories/PassiveSpec.v
theories/PassiveStack.v
theories/PenaProofs.v
theories/PlaneExp.v
theories/PlaneLimit.v
theories/PlaneSum.v
theories/PlaneVector.v
theories/PlaneWaveProofs.v
theories/PowerFlux.v
theories/PowerSpec.v
theories/PropsAutograd.v
theories/PropsBatch.v
theories/PropsBessel.v
theories/PropsBundled.v
theories/PropsDepth.v
theories/PropsFarField.v
theories/PropsFarZone.v
theories/PropsGeom.v
theories/PropsGpm.v
theories/PropsGrad.v
theories/PropsGradMat.v
theories/PropsGradNear.v
theories/PropsGradTorch.v
theories/PropsJn.v
theories/PropsLogdir.v
theories/PropsMaterial.v
theories/PropsMaxwell.v
theories/PropsMirror.v
theories/PropsNear.v
theories/PropsNearLegacy.v
theories/PropsNearPena.v
theories/PropsParticle.v
theories/PropsParticleNear.v
theories/PropsPassive.v
theories/PropsPena.v
theories/PropsPlane.v
theories/PropsPower.v
theories/PropsRayleigh.v
theories/PropsRelative.v
theories/PropsRound.v
theories/PropsRoundNear.v
theories/PropsRoundTorch.v
theories/PropsScale.v
theories/PropsSeries.v
theories/PropsSeriesMaxwell.v
theories/PropsSmall.v
theories/PropsSolve.v
theories/PropsSplit.v
theories/PropsSupport.v
theories/PropsTg.v
theories/PropsTorch.v
theories/PropsTorchBatch.v
theories/QuietSpec.v
theories/ROps.v
theories/RayleighBase.v
theories/RayleighEnd.v
theories/RayleighObs.v
theories/RayleighRadial.v
theories/RayleighSpec.v
theories/RayleighStack.v
theories/RayleighStatic.v
theories/RelativeNear.v
theories/RotProofs.v
theories/RoundBinary.v
theories/RoundEnd.v
theories/RoundNear.v
theories/RoundNearEnd.v
theories/RoundNearSpec.v
theories/RoundObs.v
theories/RoundOps.v
theories/RoundPena.v
theories/RoundPoint.v
theories/RoundSpec.v
theories/RoundTorch.v
theories/RoundTorchEnd.v
theories/RoundTorchSpec.v
theories/ScaleNear.v
theories/ScaleObs.v
theories/ScaleProofs.v
theories/SeriesAmp.v
theories/SeriesCode.v
theories/SeriesDecay.v
theories/SeriesDiff.v
theories/SeriesFar.v
theories/SeriesField.v
theories/SeriesFlux.v
theories/SeriesGrowth.v
theories/SeriesInside.v
theories/SeriesMaxwell.v
theories/SeriesNear.v
theories/SeriesNearCode.v
theories/SeriesRegion.v
theories/SeriesScatter.v
theories/SeriesScatterCode.v
theories/SeriesSpec.v
theories/SeriesSum.v
theories/SmallEnd.v
theories/SmallNearest.v
theories/SmallRound.v
theories/SmallSpec.v
theories/SolveEnd.v
theories/SolveProofs.v
theories/SolveSpec.v
theories/Spec.v
theories/SplitNear.v
theories/StackConsequences.v
theories/StackConverge.v
theories/StackProofs.v
theories/StackSpec.v
theories/SupportEnd.v
theories/SupportProofs.v
theories/SupportSpec.v
theories/Tensor.v
theories/TensorProofs.v
theories/TensorView.v
theories/TgCombine.v
theories/TgEnd.v
theories/TgPola.v
theories/TgProofs.v
theories/TgSpec.v
theories/TorchAgree.v
theories/TorchBatch.v
theories/TorchBatchDep.v
theories/TorchConverge.v
theories/TorchLossless.v
theories/TorchProofs.v
theories/TorchSpec.v
theories/TruncProofs.v
theories/TruncReal.v
