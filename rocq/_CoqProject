-Q theories Verif
theories/Model/Base.v
theories/Model/PyList.v
theories/Model/Scalar.v
theories/Model/Probe.v
theories/Model/Selection.v
theories/Model/Counters.v
theories/Model/Algorithm.v
theories/Model/Proportional.v
theories/Spec/Proportional.v
theories/Spec/Order.v
theories/Spec/Selection.v
theories/Spec/Algorithm.v
theories/Spec/Counters.v
theories/Proofs/Order.v
theories/Proofs/PyList.v
theories/Proofs/ScalarSel.v
theories/Proofs/Cyclic.v
theories/Proofs/Algorithm.v
theories/Proofs/Counters.v
theories/Proofs/Proportional.v
theories/Props/Comparison.v
theories/Props/Selection.v
theories/Props/Algorithm.v
theories/Props/Counters.v
theories/Props/Proportional.v
theories/Model/Crossover.v
theories/Model/Heap.v
theories/Model/Pipeline.v
theories/Model/Segmented.v
theories/Model/Variation.v
theories/Spec/Crossover.v
theories/Spec/Heap.v
theories/Spec/Segmented.v
theories/Spec/Variation.v
theories/Proofs/Crossover.v
theories/Proofs/Grouped.v
theories/Proofs/Heap.v
theories/Proofs/Individual.v
theories/Proofs/MutateInd.v
theories/Proofs/Pipeline.v
theories/Proofs/Segmented.v
theories/Proofs/Variation.v
theories/Proofs/XoverPair.v
theories/Props/Crossover.v
theories/Props/Individual.v
theories/Props/Mutation.v
theories/Props/Pipeline.v
theories/Props/Segmented.v
theories/Model/Decoders.v
theories/Spec/Decoders.v
theories/Proofs/Decoders.v
theories/Props/Decoders.v
theories/Model/Migration.v
theories/Spec/Migration.v
theories/Proofs/Migration.v
theories/Props/Migration.v
theories/Model/Pareto.v
theories/Spec/Pareto.v
theories/Proofs/Pareto.v
theories/Proofs/ParetoProps.v
theories/Proofs/RankOrdinal.v
theories/Props/Pareto.v
theories/Model/Crowding.v
theories/Spec/Crowding.v
theories/Proofs/Crowding.v
theories/Proofs/CrowdingProps.v
theories/Proofs/Nsga2.v
theories/Props/Crowding.v
theories/Model/Enlu.v
theories/Proofs/Enlu.v
theories/Proofs/EnluInserter.v
theories/Proofs/EnluProps.v
theories/Props/Enlu.v
theories/Model/Distrib.v
theories/Spec/Distrib.v
theories/Proofs/Distrib.v
theories/Proofs/DistribProps.v
theories/Props/Distrib.v
theories/Model/Cgp.v
theories/Spec/Cgp.v
theories/Proofs/CgpDecode.v
theories/Proofs/CgpExec.v
theories/Proofs/CgpProps.v
theories/Proofs/CgpPrune.v
theories/Props/Cgp.v
theories/Model/Problems.v
theories/Spec/Problems.v
theories/Proofs/Problems.v
theories/Props/Problems.v
theories/Model/Metrics.v
theories/Model/Rules.v
theories/Spec/Metrics.v
theories/Spec/Rules.v
theories/Proofs/Metrics.v
theories/Proofs/Rules.v
theories/Props/Metrics.v
theories/Props/Rules.v
theories/Model/RealFunctions.v
theories/Model/RealProblems.v
theories/Spec/RealFunctions.v
theories/Spec/RealProblems.v
theories/Proofs/GramSchmidt.v
theories/Proofs/Quadratic.v
theories/Proofs/RealFunctions.v
theories/Proofs/RealProblems.v
theories/Proofs/Sums.v
theories/Props/RealFunctions.v
theories/Props/RealProblems.v
theories/Model/Zdt.v
theories/Spec/Zdt.v
theories/Proofs/Zdt.v
theories/Props/Zdt.v
theories/Model/NeuralExec.v
theories/Model/NeuralNet.v
theories/Spec/NeuralNet.v
theories/Proofs/NeuralNet.v
theories/Model/Executable.v
theories/Spec/Executable.v
theories/Spec/NeuralExec.v
theories/Proofs/Executable.v
theories/Proofs/NeuralExec.v
theories/Props/NeuralExec.v
theories/Props/NeuralNet.v
theories/Props/Executable.v
theories/Model/ImageXY.v
theories/Spec/ImageXY.v
theories/Proofs/ImageXY.v
theories/Props/ImageXY.v
theories/Model/Exploratory.v
theories/Model/Transfer.v
theories/Spec/Exploratory.v
theories/Spec/Transfer.v
theories/Proofs/Exploratory.v
theories/Proofs/Transfer.v
theories/Props/Exploratory.v
theories/Props/Transfer.v
theories/Model/Simple.v
theories/Spec/Simple.v
theories/Proofs/Simple.v
theories/Props/Simple.v
theories/Model/Stats.v
theories/Spec/Stats.v
theories/Proofs/Stats.v
theories/Props/Stats.v
theories/Model/CsvProbe.v
theories/Spec/CsvProbe.v
theories/Proofs/CsvProbe.v
theories/Props/CsvProbe.v
theories/Model/SteadyNsga.v
theories/Spec/SteadyNsga.v
theories/Proofs/SteadyNsga.v
theories/Props/SteadyNsga.v
theories/Model/Analysis.v
theories/Spec/Analysis.v
theories/Proofs/Analysis.v
theories/Proofs/AnalysisTables.v
theories/Props/Analysis.v
theories/Model/PlotProbe.v
theories/Spec/PlotProbe.v
theories/Proofs/PlotProbe.v
theories/Props/PlotProbe.v
theories/Model/CsvLog.v
theories/Spec/CsvLog.v
theories/Proofs/CsvLog.v
theories/Props/CsvLog.v
theories/Model/Repertoire.v
theories/Spec/Repertoire.v
theories/Proofs/Repertoire.v
theories/Props/Repertoire.v
theories/Model/Plot2D.v
theories/Spec/Plot2D.v
theories/Proofs/Plot2D.v
theories/Props/Plot2D.v
theories/Model/ExecProbe.v
theories/Spec/ExecProbe.v
theories/Proofs/ExecProbe.v
theories/Props/ExecProbe.v
theories/Model/CurvePlot.v
theories/Spec/CurvePlot.v
theories/Proofs/CurvePlot.v
theories/Props/CurvePlot.v
theories/Model/WorkerLog.v
theories/Spec/WorkerLog.v
theories/Proofs/WorkerLog.v
theories/Props/WorkerLog.v
theories/Model/Printing.v
theories/Model/TypeCheck.v
theories/Spec/Printing.v
theories/Spec/TypeCheck.v
theories/Proofs/Printing.v
theories/Proofs/TypeCheck.v
theories/Props/Printing.v
theories/Props/TypeCheck.v
theories/Model/SegMutate.v
theories/Spec/SegMutate.v
theories/Proofs/SegMutate.v
theories/Props/SegMutate.v
theories/Model/HeapEa.v
theories/Spec/HeapEa.v
theories/Proofs/HeapEa.v
theories/Props/HeapEa.v
theories/Spec/HeapRuns.v
theories/Proofs/HeapRuns.v
theories/Props/HeapRuns.v
theories/Model/Towers.v
theories/Spec/Towers.v
theories/Proofs/Towers.v
theories/Props/Towers.v
theories/Spec/NsgaRun.v
theories/Proofs/NsgaRun.v
theories/Props/NsgaRun.v
theories/Spec/Odds.v
theories/Spec/Reach.v
theories/Proofs/Odds.v
theories/Proofs/Reach.v
theories/Props/Odds.v
theories/Props/Reach.v
theories/Spec/Chances.v
theories/Proofs/Chances.v
theories/Props/Chances.v
theories/Model/HeapIslands.v
theories/Spec/HeapIslands.v
theories/Proofs/HeapIslands.v
theories/Props/HeapIslands.v
theories/Model/SegRun.v
theories/Spec/SegRun.v
theories/Proofs/SegRun.v
theories/Props/SegRun.v
theories/Model/CoopRun.v
theories/Spec/CoopRun.v
theories/Proofs/CoopRun.v
theories/Props/CoopRun.v
theories/Spec/Search.v
theories/Proofs/Search.v
theories/Props/Search.v
theories/Model/MoFailures.v
theories/Spec/MoFailures.v
theories/Proofs/MoFailures.v
theories/Props/MoFailures.v
theories/Spec/Raising.v
theories/Proofs/Raising.v
theories/Proofs/RaisingCoop.v
theories/Proofs/RaisingSeg.v
theories/Props/Raising.v
theories/Spec/CrowdingInf.v
theories/Proofs/CrowdingInf.v
theories/Proofs/RulesNan.v
theories/Spec/CgpWild.v
theories/Spec/Refusals.v
theories/Proofs/CgpWild.v
theories/Proofs/Refusals.v
theories/Props/CgpWild.v
theories/Props/Refusals.v
theories/Model/CgpPrims.v
theories/Spec/Nand.v
theories/Spec/RealRefusals.v
theories/Spec/Refusals2.v
theories/Proofs/Nand.v
theories/Proofs/RealRefusals.v
theories/Proofs/Refusals2.v
theories/Props/Nand.v
theories/Props/RealRefusals.v
theories/Props/Refusals2.v
theories/Spec/Linkage.v
theories/Spec/Refusals3.v
theories/Proofs/Linkage.v
theories/Proofs/Refusals3.v
theories/Props/Linkage.v
theories/Props/Refusals3.v
theories/Model/Floats.v
theories/Spec/Floats.v
theories/Proofs/FloatChoices.v
theories/Proofs/FloatUses.v
theories/Proofs/Floats.v
theories/Props/Floats.v
theories/Model/FloatFitness.v
theories/Model/FloatMeans.v
theories/Spec/FloatFitness.v
theories/Spec/FloatMeans.v
theories/Proofs/FloatFitness.v
theories/Proofs/FloatMeans.v
theories/Props/FloatFitness.v
theories/Props/FloatMeans.v
theories/Model/CgpArt.v
theories/Model/CgpParams.v
theories/Spec/CgpArt.v
theories/Spec/CgpParams.v
theories/Spec/WalkOdds.v
theories/Proofs/CgpArt.v
theories/Proofs/CgpParams.v
theories/Proofs/WalkOdds.v
theories/Props/CgpArt.v
theories/Props/CgpParams.v
theories/Props/WalkOdds.v
theories/Spec/Levels.v
theories/Proofs/CrowdingNan.v
theories/Proofs/Levels.v
theories/Props/CrowdingNan.v
theories/Props/Levels.v
theories/Proofs/Tails.v
theories/Props/Tails.v
theories/Model/Strategies.v
theories/Spec/Strategies.v
theories/Proofs/Broods.v
theories/Proofs/Strategies.v
theories/Props/Strategies.v
theories/Proofs/Endless.v
theories/Props/Endless.v
theories/Spec/Drift.v
theories/Proofs/Drift.v
theories/Props/Drift.v
theories/Spec/Losses.v
theories/Proofs/Losses.v
theories/Props/Losses.v
theories/Proofs/Told.v
theories/Props/Told.v
theories/Proofs/ElitistDrift.v
theories/Props/ElitistDrift.v
theories/Proofs/ElitistLosses.v
theories/Props/ElitistLosses.v
