-Q theories Verif
theories/Model/Base.v
theories/Model/Dyn.v
theories/Lib/Lists.v
theories/Spec/Evolution.v
theories/Spec/History.v
theories/Proofs/DynInv.v
theories/Proofs/DynRun.v
theories/Proofs/DynHist.v
theories/Proofs/DynHistory.v
theories/Spec/Scalar.v
theories/Proofs/ScalarFacts.v
theories/Proofs/DynProps.v
theories/Proofs/DynMore.v
theories/Proofs/DynAgain.v
theories/Model/Timeslots.v
theories/Model/OptVars.v
theories/Model/OptRun.v
theories/Spec/Stopping.v
theories/Spec/Runs.v
theories/Proofs/DynFrame.v
theories/Proofs/OptFacts.v
theories/Proofs/OptMore.v
theories/Proofs/OptCases.v
theories/Proofs/TimeslotFacts.v
theories/Model/Float.v
theories/Model/Str.v
theories/Model/PulseGen.v
theories/Spec/Pulses.v
theories/Proofs/PulseFacts.v
theories/Proofs/PulseShapes.v
theories/Proofs/PulseWalks.v
theories/Proofs/PulseMore.v
theories/Model/Crab.v
theories/Spec/Crabs.v
theories/Proofs/CrabFacts.v
theories/Proofs/CrabMore.v
theories/Proofs/CrabInit.v
theories/Proofs/CrabCode.v
theories/Proofs/CrabParams.v
theories/Lib/Csum.v
theories/Lib/Mat.v
theories/Lib/MExp.v
theories/Lib/MCalc.v
theories/Lib/MDiag.v
theories/Spec/MatAlg.v
theories/Proofs/MatFacts.v
theories/Proofs/MatGrad.v
theories/Spec/Qubit.v
theories/Proofs/MatProps.v
theories/Proofs/QubitFacts.v
theories/Model/Symplectic.v
theories/Spec/Sympl.v
theories/Proofs/SymplFacts.v
theories/Model/Approx.v
theories/Spec/FinDiff.v
theories/Proofs/ApproxFacts.v
theories/Lib/MComm.v
theories/Model/Grape.v
theories/Spec/Grapes.v
theories/Proofs/GrapeFacts.v
theories/Proofs/GrapeMat.v
theories/Proofs/GrapeComm.v
theories/Proofs/GrapeLevel.v
theories/Proofs/GrapeQubit.v
theories/Proofs/AdaptFacts.v
theories/Proofs/AdaptLevel.v
theories/Model/Io.v
theories/Spec/Files.v
theories/Proofs/IoFacts.v
theories/Model/LoadParams.v
theories/Spec/Params.v
theories/Proofs/ParamFacts.v
theories/Model/Stats.v
theories/Spec/Counting.v
theories/Proofs/StatsFacts.v
theories/Model/Dump.v
theories/Model/DumpEvo.v
theories/Spec/Dumps.v
theories/Proofs/DumpFacts.v
theories/Proofs/DumpEvoFacts.v
theories/Model/Values.v
theories/Model/Options.v
theories/Spec/OptionRules.v
theories/Proofs/OptionFacts.v
theories/Model/Construct.v
theories/Spec/Constructed.v
theories/Proofs/ConstructFacts.v
theories/Model/Build.v
theories/Spec/Builds.v
theories/Proofs/BuildFacts.v
theories/Proofs/BuildParts.v
theories/Proofs/BuildCalls.v
theories/Proofs/BuildSelect.v
theories/Proofs/BuildTotal.v
theories/Model/DynUpd.v
theories/Spec/Masks.v
theories/Proofs/MaskFacts.v
theories/Proofs/MaskCount.v
theories/Model/Alias.v
theories/Spec/Owners.v
theories/Proofs/AliasFacts.v
theories/Model/Setup.v
theories/Spec/Setups.v
theories/Proofs/SetupFacts.v
theories/Proofs/ObjFacts.v
theories/Spec/Physics.v
theories/Proofs/PhysFacts.v
theories/Proofs/PhysRotate.v
theories/Proofs/PhysCut.v
theories/Proofs/PhysShift.v
theories/Proofs/PhysCutGrad.v
theories/Spec/Laws.v
theories/Proofs/LawFacts.v
theories/Spec/Robust.v
theories/Proofs/RobustFacts.v
theories/Model/Fault.v
theories/Spec/Faults.v
theories/Proofs/FaultSim.v
theories/Proofs/FaultNorm.v
theories/Proofs/FaultFacts.v
theories/Proofs/FaultPace.v
theories/Spec/Compare.v
theories/Proofs/CompareFacts.v
theories/Model/Memory.v
theories/Spec/Memory.v
theories/Proofs/MemoryFacts.v
theories/Model/DumpDir.v
theories/Model/PhaseOption.v
theories/Spec/Where.v
theories/Proofs/WhereFacts.v
theories/Model/DumpOut.v
theories/Proofs/DumpOutFacts.v
theories/Model/Verbose.v
theories/Spec/Loud.v
theories/Proofs/VerboseFacts.v
theories/Spec/PulseNew.v
theories/Proofs/PulseNewFacts.v
theories/Props/PropsTimeslots.v
theories/Props/PropsEvolution.v
theories/Props/PropsOptimise.v
theories/Props/PropsOptCases.v
theories/Props/PropsReinit.v
theories/Props/PropsPulse.v
theories/Props/PropsCrab.v
theories/Props/PropsMatrix.v
theories/Props/PropsSymplectic.v
theories/Props/PropsApprox.v
theories/Props/PropsGrape.v
theories/Props/PropsAdaptive.v
theories/Props/PropsIo.v
theories/Props/PropsParams.v
theories/Props/PropsStats.v
theories/Props/PropsDump.v
theories/Props/PropsOptions.v
theories/Props/PropsConstruct.v
theories/Props/PropsBuild.v
theories/Props/PropsSelect.v
theories/Props/PropsMasks.v
theories/Props/PropsAlias.v
theories/Props/PropsSetup.v
theories/Props/PropsObjective.v
theories/Props/PropsPhysics.v
theories/Props/PropsLaws.v
theories/Props/PropsRobust.v
theories/Props/PropsFault.v
theories/Props/PropsCompare.v
theories/Props/PropsMemory.v
theories/Props/PropsWhere.v
theories/Props/PropsDumpOut.v
theories/Props/PropsVerbose.v
theories/Props/PropsPulseNew.v
