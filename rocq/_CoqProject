-Q theories Verif
theories/Base/Result.v
theories/Base/Arith.v
theories/Base/RArith.v
theories/Base/FArith.v
theories/Base/Rng.v
theories/Model/Random.v
theories/Model/FastExp.v
theories/Model/Config.v
theories/Model/Nucleon.v
theories/Model/Text.v
theories/Model/Files.v
theories/Model/Nucleus.v
theories/Model/Event.v
theories/Model/CrossSection.v
theories/Model/Output.v
theories/Model/Collider.v
theories/Model/Main.v
theories/Proof/Basics.v
theories/Spec/History.v
theories/Proof/Pairs.v
theories/Proof/RBasics.v
theories/Spec/Grid.v
theories/Proof/GridP.v
theories/Proof/EventP.v
theories/Spec/Profile.v
theories/Spec/Ecc.v
theories/Proof/EccP.v
theories/Proof/ExpP.v
theories/Proof/FastExpP.v
theories/Proof/NucleonP.v
theories/Spec/Contract.v
theories/Spec/Draws.v
theories/Spec/Collision.v
theories/Spec/Demo.v
theories/Spec/Runs.v
theories/Proof/Sampling.v
theories/Proof/Collision.v
theories/Proof/Ctor.v
theories/Proof/Writers.v
theories/Proof/EveryEvent.v
theories/Spec/Evolved.v
theories/Proof/DepositR.v
theories/Spec/Mean.v
theories/Proof/MeanP.v
theories/Spec/Symmetry.v
theories/Proof/SymP.v
theories/Properties/Events.v
theories/Properties/Thickness.v
theories/Properties/GridProps.v
theories/Spec/Total.v
theories/Proof/FComm.v
theories/Proof/ReducedP.v
theories/Properties/Reduced.v
theories/Spec/Geometry.v
theories/Proof/ShiftP.v
theories/Proof/RadiiP.v
theories/Proof/ManualP.v
theories/Proof/ImpactP.v
theories/Proof/Ieee.v
theories/Properties/Nuclei.v
theories/Properties/LightNuclei.v
theories/Properties/NucleiInst.v
theories/Properties/Impact.v
theories/Properties/RealRun.v
theories/Properties/ImpactIeee.v
theories/Spec/Decimal.v
theories/Spec/Cache.v
theories/Proof/TextP.v
theories/Proof/CacheP.v
theories/Properties/Search.v
theories/Proof/FsP.v
theories/Proof/CacheRun.v
theories/Properties/Cache.v
theories/Proof/CacheWrite.v
theories/Proof/DecR.v
theories/Properties/RoundTrip.v
theories/Properties/WideSigma.v
theories/Properties/CacheInst.v
theories/Spec/Repro.v
theories/Spec/Options.v
theories/Proof/ReproP.v
theories/Proof/OptionsP.v
theories/Properties/Options.v
theories/Properties/Seed.v
theories/Spec/Cyclic.v
theories/Proof/CyclicP.v
theories/Properties/CyclicNormal.v
theories/Spec/MonteCarlo.v
theories/Proof/MonteCarloP.v
theories/Properties/MonteCarlo.v
theories/Properties/ColdMonteCarlo.v
theories/Spec/Constituents.v
theories/Proof/ConstituentsP.v
theories/Properties/Constituents.v
theories/Spec/Species.v
theories/Properties/Species.v
theories/Properties/Manual.v
theories/Spec/Table.v
theories/Proof/TableP.v
theories/Properties/Stdout.v
theories/Proof/IeeeInt.v
theories/Properties/FileNames.v
theories/Spec/FileTree.v
theories/Proof/FsTree.v
theories/Properties/TextFiles.v
theories/Proof/OutputP.v
theories/Properties/Overwrite.v
theories/Properties/OutputRuns.v
theories/Properties/OutputInst.v
theories/Properties/ThicknessIeee.v
theories/Properties/GridIeee.v
theories/Spec/CrossSection.v
theories/Properties/CrossSection.v
theories/Properties/Configured.v
theories/Spec/Replay.v
theories/Proof/FreshP.v
theories/Properties/Replay.v
theories/Spec/Distributions.v
theories/Proof/DistP.v
theories/Properties/Distributions.v
theories/Properties/Trial.v
theories/Properties/TrialInst.v
theories/Properties/RunNuclei.v
theories/Model/CacheSteps.v
theories/Spec/Concurrent.v
theories/Proof/StepsP.v
theories/Proof/StepsQ.v
theories/Properties/Concurrent.v
theories/Properties/ConcurrentInst.v
theories/Model/Killed.v
theories/Spec/Killed.v
theories/Proof/KilledP.v
theories/Properties/Killed.v
theories/Properties/KilledInst.v
theories/Model/RunSteps.v
theories/Spec/Parallel.v
theories/Proof/ParallelP.v
theories/Proof/ParallelQ.v
theories/Proof/ParallelW.v
theories/Proof/ParallelR.v
theories/Properties/Parallel.v
theories/Properties/ParallelInst.v
theories/Spec/Safe.v
theories/Proof/SafeP.v
theories/Proof/SafeNuclei.v
theories/Proof/SafeRun.v
theories/Proof/SafeNew.v
theories/Properties/Safe.v
theories/Properties/SafeInst.v
theories/Model/CommandLine.v
theories/Spec/CommandLine.v
theories/Proof/CommandLineP.v
theories/Proof/CastP.v
theories/Proof/CommandLine2P.v
theories/Properties/CommandLine.v
theories/Spec/ConfigFile.v
theories/Proof/ConfigFileP.v
theories/Properties/ConfigFile.v
theories/Spec/Columns.v
theories/Spec/FineDemo.v
theories/Proof/FineExp.v
theories/Proof/ColumnsP.v
theories/Properties/Columns.v
theories/Properties/ColumnsInst.v
theories/Spec/Enlarge.v
theories/Proof/EnlargeP.v
theories/Properties/Enlarge.v
theories/Properties/EnlargeInst.v
theories/Spec/Invocation.v
theories/Properties/Invocation.v
theories/Spec/Dominance.v
theories/Properties/Dominance.v
theories/Properties/DominanceInst.v
theories/Spec/Frame.v
theories/Proof/FrameP.v
theories/Properties/Frame.v
theories/Properties/FrameInst.v
theories/Spec/Exchange.v
theories/Proof/ExchangeP.v
theories/Properties/Exchange.v
theories/Properties/ExchangeInst.v
theories/Spec/Isotropy.v
theories/Proof/IsotropyP.v
theories/Properties/Isotropy.v
theories/Properties/IsotropyInst.v
theories/Spec/Law.v
theories/Proof/LawP.v
theories/Properties/Ncoll.v
theories/Properties/NcollInst.v
theories/Spec/Glauber.v
theories/Proof/GlauberP.v
theories/Properties/Glauber.v
theories/Properties/GlauberInst.v
theories/Spec/Radii.v
theories/Spec/Attempts.v
theories/Spec/Positions.v
theories/Spec/Entropy.v
theories/Proof/AttemptsP.v
theories/Proof/PositionsP.v
theories/Proof/MeanOrder.v
theories/Proof/EccScale.v
theories/Properties/Attempts.v
theories/Properties/AttemptsInst.v
theories/Properties/Positions.v
theories/Properties/PositionsInst.v
theories/Properties/Entropy.v
theories/Properties/EntropyInst.v
theories/Spec/Finite.v
theories/Spec/Accuracy.v
theories/Spec/MeanRounded.v
theories/Spec/EccRounded.v
theories/Spec/Integral.v
theories/Spec/MinBias.v
theories/Proof/IeeeSum.v
theories/Proof/IeeeEcc.v
theories/Proof/IeeeExp.v
theories/Proof/IeeeThick.v
theories/Proof/IeeeMean.v
theories/Proof/IeeeProfile.v
theories/Proof/IeeeBox.v
theories/Proof/IeeeMeanAcc.v
theories/Proof/IeeeEccAcc.v
theories/Proof/GaussInt.v
theories/Proof/Midpoint.v
theories/Proof/GridIntegral.v
theories/Proof/DiscSum.v
theories/Proof/MinBiasP.v
theories/Properties/FiniteIeee.v
theories/Properties/FiniteRun.v
theories/Properties/FiniteInst.v
theories/Properties/AccuracyIeee.v
theories/Properties/MeanIeee.v
theories/Properties/EccIeee.v
theories/Properties/Integral.v
theories/Properties/IntegralIeee.v
theories/Properties/MinBias.v
theories/Properties/MinBiasInst.v
