-Q theories Verif
theories/Base.v
theories/Tracker.v
theories/Command.v
theories/Run.v
theories/Fnv.v
theories/Geom.v
theories/Metropolis.v
theories/Mp.v
theories/Action.v
theories/Acceptance.v
theories/MpFlocq.v
theories/HastingsError.v
theories/Simplex.v
theories/Pachner.v
theories/Foliation.v
theories/Moves.v
theories/Links.v
theories/MoveCore.v
theories/MoveTools.v
theories/Move23.v
theories/Move44.v
theories/Move26.v
theories/Move26Site.v
theories/Move62Site.v
theories/Manifold.v
theories/MoveSpec.v
theories/MoveSound.v
theories/ManifoldFacts.v
theories/ManifoldMoves.v
theories/Samples.v
theories/ClassFacts.v
theories/Reverse.v
theories/Reverse44.v
theories/Objects.v
theories/ObjectsSpec.v
theories/ObjectsFacts.v
theories/ObjectsRuns.v
theories/ObjectsReads.v
theories/ObjectsWorld.v
theories/ObjectsLemmas.v
theories/ObjectsExample.v
theories/ObjectsGeometry.v
theories/PropsRunLemmas.v
theories/MoveProps.v
theories/NoThrow.v
theories/Select.v
theories/Loops.v
theories/Undo.v
theories/SampleFacts.v
theories/Config.v
theories/ConfigSpec.v
theories/ConfigFacts.v
theories/ConfigProps.v
theories/Repair.v
theories/FoliationSpec.v
theories/RepairFacts.v
theories/FoliationFacts.v
theories/FoliationProps.v
theories/FoliationProps2.v
theories/RepairSample.v
theories/Text.v
theories/PersistSpec.v
theories/TextFacts.v
theories/Persist.v
theories/PersistFacts.v
theories/MetaSpec.v
theories/MetaFacts.v
theories/MetaRound.v
theories/MetaLook.v
theories/MetaRoundTrip.v
theories/FileSys.v
theories/FileIO.v
theories/FsLogic.v
theories/FsSpec.v
theories/FsFacts.v
theories/FsProps.v
theories/FsThreads.v
theories/FsCheckpoint.v
theories/RunCheckpoint.v
theories/CheckpointState.v
theories/FsSample.v
theories/FingerprintSpec.v
theories/Canon.v
theories/CanonRelabel.v
theories/FingerprintFacts.v
theories/Locks.v
theories/LockSpec.v
theories/LockFacts.v
theories/Program.v
theories/ProgramSpec.v
theories/ProgramFacts.v
theories/Names.v
theories/ProgramNames.v
theories/Toy.v
theories/ViewerImage.v
theories/ViewerImageSpec.v
theories/ViewerImageFacts.v
theories/Viewer.v
theories/ViewerSpec.v
theories/ViewerFacts.v
theories/ViewerFrame.v
theories/ViewerScene.v
theories/ViewerSceneSpec.v
theories/ViewerSceneFacts.v
theories/ViewerOutward.v
theories/ViewerMain.v
theories/ViewerMainSpec.v
theories/ViewerMainFacts.v
theories/ViewerSample.v
theories/ViewerSampleFacts.v
theories/PropsRun.v
theories/PropsMetropolis.v
theories/PropsAcceptance.v
theories/PropsMoves.v
theories/PropsConfig.v
theories/PropsFoliation.v
theories/PropsPersist.v
theories/PropsFingerprint.v
theories/PropsLocks.v
theories/PropsOutputs.v
theories/PropsProgram.v
theories/PropsViewer.v
theories/Ieee.v
theories/IeeeSpec.v
theories/IeeeDouble.v
theories/PropsIeee.v
theories/PropsObjects.v
theories/StarSpec.v
theories/StarFacts.v
theories/Seams.v
theories/Circulator.v
theories/Incident.v
theories/SeamSpec.v
theories/Flip.v
theories/FlipFacts.v
theories/SeamFacts.v
theories/SeamMoves.v
theories/SeamValid.v
theories/SeamSample.v
theories/PropsSeams.v
theories/ApplySpec.v
theories/Apply.v
theories/ApplyDo.v
theories/PropsApply.v
theories/Pcg.v
theories/PcgFacts.v
theories/PcgProps.v
theories/PropsRandom.v
theories/Draw.v
theories/DrawFacts.v
theories/DrawProps.v
theories/ShuffleFacts.v
theories/TrialFacts.v
theories/PropsDraw.v
theories/Radii.v
theories/RadiiSpec.v
theories/RadiiFacts.v
theories/RadiiProps.v
theories/BoxFacts.v
theories/IeeeRadii.v
theories/PropsRadii.v
theories/Transcript.v
theories/TranscriptSpec.v
theories/TranscriptFacts.v
theories/TranscriptLines.v
theories/TranscriptProps.v
theories/TranscriptRuns.v
theories/TranscriptCounts.v
theories/PropsTranscript.v
theories/Centroid.v
theories/CentroidSpec.v
theories/CentroidFacts.v
theories/CentroidMoves.v
theories/CentroidSamples.v
theories/PropsCentroid.v
theories/Strategy.v
theories/StrategySpec.v
theories/StrategyFacts.v
theories/PropsStrategy.v
theories/Announce.v
theories/AnnounceSpec.v
theories/AnnounceFacts.v
theories/PropsAnnounce.v
theories/Listing.v
theories/ListingSpec.v
theories/ListingFacts.v
theories/PropsListing.v
theories/DrawReal.v
theories/DrawRealSpec.v
theories/DrawRealFacts.v
theories/PropsReal.v
theories/SeparateSpec.v
theories/SeparateFacts.v
theories/SeparateProps.v
theories/PropsSeparate.v
theories/KernelSpec.v
theories/KernelFacts.v
theories/KernelProps.v
theories/KernelBalance.v
theories/KernelStep.v
theories/PropsKernel.v
theories/SliceSpec.v
theories/SliceFacts.v
theories/SliceMoves.v
theories/SliceSample.v
theories/PropsSlices.v
theories/ChainSpec.v
theories/ChainFacts.v
theories/ChainProps.v
theories/PropsChain.v
theories/EngineSpec.v
theories/EngineFacts.v
theories/EngineProps.v
theories/EngineThrown.v
theories/EngineCalls.v
theories/NameProps.v
theories/PropsEngine.v
theories/PassSpec.v
theories/PassFacts.v
theories/PropsPasses.v
theories/TrapFacts.v
theories/PropsTraps.v
theories/Lookup.v
theories/LookupSpec.v
theories/LookupFacts.v
theories/LookupRuns.v
theories/PropsLookup.v
theories/CountSpec.v
theories/CountFacts.v
theories/PropsCounts.v
