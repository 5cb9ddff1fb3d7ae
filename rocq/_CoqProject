-Q theories Verif

theories/Base/Num.v
theories/Base/Result.v
theories/Base/Vec.v
theories/Base/Trans.v
theories/Model/Constants.v
theories/Model/Particle.v
theories/Model/Host.v
theories/Model/Interp.v
theories/Model/Wind.v
theories/Model/Disk.v
theories/Model/Tools.v
theories/Model/Kaula.v
theories/Model/Creep.v
theories/Model/Tides.v
theories/Model/Flattening.v
theories/Model/Relativity.v
theories/Model/Universe.v
theories/Model/LeapFrog.v
theories/Model/WHFast.v
theories/Model/IAS15.v
theories/Model/History.v
theories/Model/Run.v
theories/Model/Machine.v
theories/Model/Cli.v
theories/Spec/HistorySpec.v
theories/Spec/RunSpec.v
theories/Spec/ClockSpec.v
theories/Spec/TablesSpec.v
theories/Spec/EffectsSpec.v
theories/Spec/UniverseSpec.v
theories/Spec/WHFastSpec.v
theories/Spec/IAS15Spec.v
theories/Spec/IAS15MomentumSpec.v
theories/Spec/ReciprocitySpec.v
theories/Proofs/NumLemmas.v
theories/Proofs/VecLemmas.v
theories/Proofs/HistoryProofs.v
theories/Proofs/MachineProofs.v
theories/Proofs/MachineTheorems.v
theories/Proofs/ClockProofs.v
theories/Proofs/LossProofs.v
theories/Proofs/SettingsProofs.v
theories/Proofs/HistoryRun.v
theories/Proofs/MachineExec.v
theories/Proofs/RunExamples.v
theories/Proofs/ClockExamples.v
theories/Proofs/TablesProofs.v
theories/Proofs/EvolveProofs.v
theories/Proofs/TablesExamples.v
theories/Proofs/TidesProofs.v
theories/Proofs/PairProofs.v
theories/Proofs/CreepProofs.v
theories/Proofs/FlatteningProofs.v
theories/Proofs/Gradient.v
theories/Proofs/QuadrupoleProofs.v
theories/Proofs/DisabledProofs.v
theories/Proofs/CayleyProofs.v
theories/Proofs/CreepShapeProofs.v
theories/Proofs/TidesExamples.v
theories/Proofs/KaulaIdle.v
theories/Proofs/RelativityProofs.v
theories/Proofs/ShiftProofs.v
theories/Proofs/RelativityExamples.v
theories/Proofs/DiskProofs.v
theories/Proofs/DiskExamples.v
theories/Proofs/GravityProofs.v
theories/Proofs/LeapFrogProofs.v
theories/Proofs/UniverseProofs.v
theories/Proofs/FrameProofs.v
theories/Proofs/EffectSums.v
theories/Proofs/WHFastCoords.v
theories/Proofs/WHFastRun.v
theories/Proofs/WHFastStep.v
theories/Proofs/StumpffProofs.v
theories/Proofs/KeplerProofs.v
theories/Proofs/MidpointProofs.v
theories/Proofs/UniverseExamples.v
theories/Proofs/WHFastExamples.v
theories/Proofs/WHFastLast.v
theories/Proofs/IAS15Poly.v
theories/Proofs/IAS15Fit.v
theories/Proofs/IAS15Pass.v
theories/Proofs/IAS15Step.v
theories/Proofs/IAS15Control.v
theories/Proofs/IAS15Accept.v
theories/Proofs/IAS15Root.v
theories/Proofs/IAS15Examples.v
theories/Props/RunProps.v
theories/Props/ClockProps.v
theories/Props/TablesProps.v
theories/Props/EffectsProps.v
theories/Props/ReciprocityProps.v
theories/Spec/SkippedSpec.v
theories/Proofs/SkippedProofs.v
theories/Props/RelativityProps.v
theories/Props/UniverseProps.v
theories/Props/WHFastProps.v
theories/Spec/CorrectorSpec.v
theories/Spec/Binary64Spec.v
theories/Proofs/Compensated.v
theories/Proofs/IAS15Corrector.v
theories/Proofs/IAS15Momentum.v
theories/Proofs/Reciprocity.v
theories/Proofs/ReciprocityRuns.v
theories/Proofs/ReciprocityExamples.v
theories/Proofs/ReciprocityWHFast.v
theories/Proofs/ReciprocityWHFastExamples.v
theories/Props/IAS15Props.v
theories/Props/Binary64Props.v
theories/Spec/KaulaSpec.v
theories/Spec/KaulaTorqueSpec.v
theories/Proofs/KaulaTables.v
theories/Proofs/KaulaLove.v
theories/Proofs/KaulaForce.v
theories/Proofs/KaulaBranches.v
theories/Proofs/Spherical.v
theories/Proofs/KaulaSeries.v
theories/Proofs/KaulaTorque.v
theories/Proofs/KaulaHost.v
theories/Spec/KaulaMeanSpec.v
theories/Proofs/KaulaMean.v
theories/Proofs/KaulaMeanExamples.v
theories/Props/KaulaProps.v
theories/Props/KaulaTorqueProps.v
theories/Props/KaulaMeanProps.v
theories/Spec/OrbitSpec.v
theories/Proofs/OrbitState.v
theories/Proofs/OrbitElements.v
theories/Proofs/TrueAnomaly.v
theories/Proofs/KeplerSolvers.v
theories/Proofs/OrbitFindings.v
theories/Props/OrbitProps.v
theories/Model/Bincode.v
theories/Spec/SnapshotSpec.v
theories/Proofs/BincodeProofs.v
theories/Proofs/SnapshotProofs.v
theories/Proofs/SnapshotExamples.v
theories/Proofs/SnapshotSizes.v
theories/Props/SnapshotProps.v
theories/Spec/SplittingSpec.v
theories/Spec/AngularSpec.v
theories/Proofs/SplittingCoords.v
theories/Proofs/SplittingProofs.v
theories/Proofs/SplittingMomentum.v
theories/Proofs/KeplerTotal.v
theories/Proofs/KeplerBounds.v
theories/Proofs/WHFastTotal.v
theories/Proofs/SplittingExamples.v
theories/Proofs/TorqueBalance.v
theories/Proofs/AngularBalance.v
theories/Proofs/AngularStep.v
theories/Proofs/AngularRuns.v
theories/Proofs/AngularExamples.v
theories/Props/SplittingProps.v
theories/Props/AngularProps.v
theories/Model/Setters.v
theories/Spec/CreepFlatteningSpec.v
theories/Spec/SettersSpec.v
theories/Proofs/CreepFlatteningPass.v
theories/Proofs/CreepFlatteningProofs.v
theories/Proofs/CreepFlatteningJump.v
theories/Proofs/SettersProofs.v
theories/Proofs/CreepNaN.v
theories/Props/CreepFlatteningProps.v
theories/Spec/DiskSpec.v
theories/Proofs/DiskLaw.v
theories/Proofs/DiskOrbit.v
theories/Props/DiskProps.v
theories/Spec/TidalOrbitSpec.v
theories/Proofs/TidalOrbit.v
theories/Props/TidalOrbitProps.v
theories/Spec/EIHSpec.v
theories/Proofs/EIHProofs.v
theories/Spec/PostNewtonSpec.v
theories/Proofs/PostNewton.v
theories/Proofs/RelativisticPair.v
theories/Proofs/AndersonProofs.v
theories/Proofs/AndersonMomentum.v
theories/Proofs/PostNewtonExamples.v
theories/Spec/CreepTideSpec.v
theories/Proofs/CreepTideFigure.v
theories/Proofs/AndersonWHFast.v
theories/Props/PostNewtonProps.v
theories/Spec/WindSpec.v
theories/Proofs/SpinDown.v
theories/Props/WindProps.v
theories/Model/StarTables.v
theories/Spec/StarTablesSpec.v
theories/Proofs/StarTablesProofs.v
theories/Props/StarTablesProps.v
theories/Spec/EvolvingRunSpec.v
theories/Proofs/EvolvingRun.v
theories/Proofs/EvolvingRunWH.v
theories/Proofs/EvolvingExamples.v
theories/Proofs/EvolvingExamplesWH.v
theories/Props/EvolvingRunProps.v
