-Q theories Verif
theories/Prelude.v
theories/Chars.v
theories/Normalize.v
theories/Utils.v
theories/Candidate.v
theories/MatchedRanges.v
theories/Query.v
theories/Parser.v
theories/Memory.v
theories/Scoring.v
theories/Slab.v
theories/Fzf.v
theories/FzfV1.v
theories/FzfV2.v
theories/Api.v
theories/Checked.v
theories/Usage.v
theories/Debug.v
theories/UpstreamTests.v
theories/UnitTests.v
theories/Spec.v
theories/PreludeProofs.v
theories/CharsProofs.v
theories/NormalizeProofs.v
theories/CandidateProofs.v
theories/MatchedRangesProofs.v
theories/ParserProofs.v
theories/MemoryProofs.v
theories/MemoryMetric.v
theories/MemoryMetricProofs.v
theories/ScoreProofs.v
theories/ExactProofs.v
theories/ExactChoice.v
theories/ShapeProofs.v
theories/V1Proofs.v
theories/V2Tables.v
theories/V2Proofs.v
theories/V2Rows.v
theories/V2Fuzzy.v
theories/History.v
theories/ApiProofs.v
theories/CheckedProofs.v
theories/AcceptProofs.v
theories/RangeProofs.v
theories/WordsProofs.v
theories/V2Facts.v
theories/V2Path.v
theories/CongProofs.v
theories/FuzzyFacts.v
theories/Claims1.v
theories/Claims2.v
theories/Claims3.v
theories/Claims4.v
theories/Claims5.v
theories/Claims6.v
theories/Claims7.v
theories/Claims8.v
theories/ParProofs.v
theories/Claims9.v
theories/Claims10.v
theories/ExampleKit.v
theories/Properties_results.v
theories/Properties_highlight.v
theories/Properties_accept.v
theories/Properties_score.v
theories/Properties_usage.v
theories/Properties_alike.v
theories/Properties_machine.v
theories/Claims11.v
theories/Claims12.v
theories/Claims13.v
theories/Properties_memory.v
theories/Properties_best.v
theories/Cost.v
theories/CostProofs.v
theories/CostBounds.v
theories/Claims14.v
theories/Claims15.v
theories/Claims16.v
theories/Claims17.v
theories/ParseCost.v
theories/ParseCostProofs.v
theories/Claims18.v
theories/CostRanges.v
theories/BinarySearch.v
theories/BinarySearchProofs.v
theories/CostRangesProofs.v
theories/CostRangesBounds.v
theories/Claims19.v
theories/Properties_cost.v
theories/Properties_exactcost.v
theories/Properties_amount.v
theories/Properties_scheme.v
theories/Properties_parsecost.v
theories/Properties_rangescost.v
theories/Properties_termcost.v
theories/Properties_buffers.v
theories/Properties_earned.v
theories/Properties_debug.v
theories/Typing.v
theories/Writing.v
theories/Claims22.v
theories/PrintSpec.v
theories/Claims23.v
theories/Properties_writing.v
theories/Claims20.v
theories/Claims21.v
theories/Properties_typing.v
theories/Borrows.v
theories/BorrowsProofs.v
theories/BorrowsParser.v
theories/BorrowsMetric.v
theories/BorrowsMetricProofs.v
theories/Claims24.v
theories/Properties_borrows.v
theories/BorrowsThreads.v
theories/SpecThreads.v
theories/BorrowsThreadsProofs.v
theories/Claims25.v
theories/Properties_threads.v
theories/Workers.v
theories/SpecWorkers.v
theories/WorkersProofs.v
theories/Claims46.v
theories/Properties_workers.v
theories/SpecAlloc.v
theories/AllocProofs.v
theories/Claims47.v
theories/Claims48.v
theories/Claims49.v
theories/Properties_alloc.v
theories/Logic.v
theories/Claims26.v
theories/Claims27.v
theories/Claims28.v
theories/Ranking.v
theories/Claims29.v
theories/Sizes.v
theories/Claims30.v
theories/Loss.v
theories/Claims31.v
theories/Highlight.v
theories/Claims32.v
theories/UnicodeLetters.v
theories/Claims33.v
theories/Claims34.v
theories/CostFormula.v
theories/CostExact.v
theories/Claims35.v
theories/Amount.v
theories/Claims36.v
theories/Claims37.v
theories/BorrowRules.v
theories/Claims38.v
theories/ParseFormula.v
theories/Claims39.v
theories/RangesFormula.v
theories/Claims40.v
theories/Claims41.v
theories/TermCost.v
theories/Claims42.v
theories/Claims43.v
theories/Claims44.v
theories/Claims45.v
theories/Properties_logic.v
theories/Properties_placed.v
theories/Properties_ranking.v
theories/Properties_sizes.v
theories/Properties_display.v
theories/Properties_letters.v
