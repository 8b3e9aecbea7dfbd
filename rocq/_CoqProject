-Q theories Verif
theories/Base.v
theories/Arith.v
theories/B64.v
theories/Rand.v
theories/Mpi.v
theories/MpiMeta.v
theories/Mh.v
theories/Ladder.v
theories/Tune.v
theories/Prog.v
theories/Seq.v
theories/Spmd.v
theories/ListAux.v
theories/MhSpec.v
theories/SeqWf.v
theories/Refine.v
theories/SeqTotal.v
theories/System.v
theories/SeedRace.v
theories/B64Facts.v
theories/RandRange.v
theories/Seeds.v
theories/UserModels.v
theories/Boundary.v
theories/BounceDensity.v
theories/Demo.v
theories/Runs.v
theories/SeqFiles.v
theories/History.v
theories/Views.v
theories/RunHist.v
theories/HistCount.v
theories/HistRows.v
theories/Failing.v
theories/FailRuns.v
theories/OneRank.v
theories/SeedRuns.v
theories/SchedLemmas.v
theories/PropRand.v
theories/PropSched.v
theories/PropBound.v
theories/CountLemmas.v
theories/PropCount.v
theories/SwapLemmas.v
theories/SwapReal.v
theories/ChainInv.v
theories/Stale.v
theories/SwapMore.v
theories/PropSwap.v
theories/Metro.v
theories/BoxRuns.v
theories/PropMetro.v
theories/LadderRuns.v
theories/LadderReal.v
theories/LadderOrder.v
theories/LadderBad.v
theories/SwapStats.v
theories/LadderN.v
theories/LadderFour.v
theories/PropLadder.v
theories/TuneRuns.v
theories/TuneOpt.v
theories/TuneSteps.v
theories/TuneStacks.v
theories/TuneRange.v
theories/TuneB64.v
theories/TuneOut.v
theories/PropTune.v
theories/Bytes.v
theories/BytesFacts.v
theories/Readin.v
theories/ReadFacts.v
theories/Loader.v
theories/LoadFacts.v
theories/BetaFacts.v
theories/InputRuns.v
theories/Names.v
theories/Alloc.v
theories/Inputs.v
theories/Shipped.v
theories/PropInput.v
theories/PropData.v
theories/Kepler.v
theories/UserOld.v
theories/PriorInt.v
theories/OrbFacts.v
theories/HierFacts.v
theories/PropModels.v
theories/PropFields.v
theories/Streams.v
theories/DrawRuns.v
theories/PropStream.v
theories/Whole.v
theories/BoxReal.v
theories/PropWhole.v
theories/Printf.v
theories/PrintFacts.v
theories/TextRuns.v
theories/PropText.v
theories/Digits.v
theories/NormalLaw.v
theories/PropNormal.v
theories/Nice.v
theories/Invariance.v
theories/PropInvar.v
theories/PropChoice.v
theories/Faults.v
theories/PropFault.v
theories/PropAgain.v
theories/Tempering.v
theories/PropTemper.v
theories/Converge.v
theories/PropConverge.v
theories/Average.v
theories/PropAverage.v
theories/Uniform.v
theories/CacheTail.v
theories/PropTuned.v
theories/PropSaved.v
theories/Heap.v
theories/HeapFacts.v
theories/HeapSpec.v
theories/HeapRank.v
theories/HeapCaps.v
theories/HeapBad.v
theories/PropHeap.v
theories/PropShipped.v
theories/LossFacts.v
theories/PropLoss.v
theories/ShortFacts.v
theories/PropShort.v
theories/HeapFail.v
theories/PropNull.v
theories/Launch.v
theories/PropLaunch.v
theories/Scripts.v
theories/PropScripts.v
theories/RankBeta.v
theories/PropRanks.v
theories/NoDir.v
theories/PropNoDir.v
theories/Kepler64.v
theories/Orb64.v
theories/Cycle64.v
theories/PropKepler.v
theories/Decide64.v
theories/PropDecide.v
theories/Reg64.v
theories/PropReg.v
theories/LogUnif64.v
theories/PropLogUnif.v
theories/Width64.v
theories/PropWidth.v
theories/Ladder64.v
theories/PropLadder64.v
theories/LadderEven.v
theories/PropEven.v
theories/LadderToward.v
theories/PropToward.v
theories/PropEgg.v
theories/PropGauss.v
theories/PropCurved.v
