-Q theories Verif
theories/Spec.v
theories/WideSpec.v
theories/Outcome.v
theories/State.v
theories/ModelCounter.v
theories/ModelHeur.v
theories/ModelLearn.v
theories/ModelWatch.v
theories/ModelSearch.v
theories/ModelBuild.v
theories/ModelHeap.v
theories/ModelObj.v
theories/Base.v
theories/Trail.v
theories/Reduce.v
theories/Counter.v
theories/CounterUndo.v
theories/Propagate.v
theories/Choose.v
theories/Scores.v
theories/Chrono.v
theories/Init.v
theories/Analyze.v
theories/Learn.v
theories/Cdcl.v
theories/Nc.v
theories/Observe.v
theories/Solve.v
theories/Watch.v
theories/WatchProp.v
theories/Wl.v
theories/SolveWl.v
theories/Fuel.v
theories/Runs.v
theories/Counts.v
theories/Steps.v
theories/StepSpec.v
theories/Reach.v
theories/StepFacts.v
theories/Cases.v
theories/PropRuns.v
theories/StepCases.v
theories/PropSteps.v
theories/StatSpec.v
theories/Frame.v
theories/Stats.v
theories/StatRuns.v
theories/PropStats.v
theories/ScoreSpec.v
theories/ScoreFacts.v
theories/LazySpec.v
theories/LazyFacts.v
theories/PropChoices.v
theories/TrailSpec.v
theories/TrailFacts.v
theories/PropTrail.v
theories/LearnSpec.v
theories/Uip.v
theories/PropLearn.v
theories/TextSpec.v
theories/ModelText.v
theories/ModelRead.v
theories/Text.v
theories/Read.v
theories/CliSpec.v
theories/ModelCli.v
theories/Cli.v
theories/ReadBuild.v
theories/Keep.v
theories/Strict.v
theories/FileCases.v
theories/PropFiles.v
theories/EncodeSpec.v
theories/ModelEncode.v
theories/Encode.v
theories/Quad.v
theories/Linear.v
theories/EncodeMore.v
theories/EncodeCases.v
theories/EncodeProofs.v
theories/PropEncode.v
theories/ModelB2f.v
theories/B2f.v
theories/ConvertCases.v
theories/PropConvert.v
theories/FileUnique.v
theories/ModelGen.v
theories/Gen.v
theories/GenFin.v
theories/GenText.v
theories/GenBool.v
theories/PropGen.v
theories/ModelMenu.v
theories/ModelMain.v
theories/MainSpec.v
theories/MainFacts.v
theories/MainMore.v
theories/Pipe.v
theories/PropMain.v
theories/ModelBench.v
theories/BenchSpec.v
theories/Bench.v
theories/Bench2.v
theories/Bench3.v
theories/Bench4.v
theories/Bench5.v
theories/Bench6.v
theories/BenchRuns.v
theories/PropBench.v
theories/HeapSpec.v
theories/Heap.v
theories/HeapSim.v
theories/HeapRuns.v
theories/PropHeap.v
theories/ObjSpec.v
theories/Obj.v
theories/PropObj.v
theories/RangeSpec.v
theories/Range.v
theories/RangeFacts.v
theories/PropRange.v
theories/ModelBit.v
theories/BitTrail.v
theories/BitInv.v
theories/BitResolve.v
theories/BitStepSpec.v
theories/BitNode.v
theories/BitLearn.v
theories/BitLoop.v
theories/BitSpec.v
theories/BitBuild.v
theories/BitSafe.v
theories/BitScores.v
theories/BitStep.v
theories/BitRuns.v
theories/PropBit.v
theories/PropBitStep.v
theories/ModelBitMain.v
theories/BitMainSpec.v
theories/BitMainFacts.v
theories/PropBitMain.v
theories/BitWide.v
theories/BitWideMain.v
theories/PropBitWide.v
theories/BitMany.v
theories/BitEnds.v
theories/BitEndsMain.v
theories/PropBitEnds.v
theories/BitClauses.v
theories/BitClausesMain.v
theories/PropBitClauses.v
theories/ModelBitMem.v
theories/BitMemSpec.v
theories/BitHeap.v
theories/BitMemSim.v
theories/BitMemRuns.v
theories/BitMemFacts.v
theories/PropBitMem.v
theories/ModelOrig.v
theories/OrigSpec.v
theories/OrigSim.v
theories/OrigProp.v
theories/OrigChrono.v
theories/OrigInit.v
theories/OrigSolve.v
theories/OrigPtr.v
theories/OrigCid.v
theories/OrigDrift.v
theories/OrigNC.v
theories/OrigMono.v
theories/OrigBound.v
theories/PropOrig.v
theories/ModelOrigMain.v
theories/OrigMainSpec.v
theories/OrigMainFacts.v
theories/PropOrigMain.v
theories/BitTick.v
theories/TimeFacts.v
theories/OrigTick.v
theories/PropTime.v
theories/RandomSpec.v
theories/ModelRandom.v
theories/RandomFacts.v
theories/PropRandom.v
theories/BitRange.v
theories/PropBitRange.v
theories/OrigRange.v
theories/PropOrigRange.v
theories/ModelFolders.v
theories/FoldersSpec.v
theories/Folders.v
theories/PropFolders.v
theories/Queens.v
theories/PropQueens.v
theories/ManyAmazons.v
theories/Amazons.v
theories/PropAmazons.v
theories/ModelDrive.v
theories/DriveSpec.v
theories/Drive.v
theories/PropDrive.v
