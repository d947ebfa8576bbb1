-Q theories Verif
theories/Common.v
theories/CommonProofs.v
theories/SpecSort.v
theories/SortNet.v
theories/SortNetProofs.v
theories/SortNetProps.v
theories/SortIntro.v
theories/SortIntroProofs.v
theories/SortTo.v
theories/SortToProofs.v
theories/SortIntroProps.v
theories/SpecAlg.v
theories/AlgSearch.v
theories/AlgSearchProofs.v
theories/AlgSearchProps.v
theories/AlgCompare.v
theories/AlgCompareProofs.v
theories/AlgCompareProps.v
theories/AlgModify.v
theories/AlgModifyProofs.v
theories/AlgModifyProps.v
theories/Ints.v
theories/BitsModel.v
theories/SpecBits.v
theories/BitsProofs.v
theories/BitsProps.v
theories/BitQueue.v
theories/BitQueueProofs.v
theories/BitQueueProps.v
theories/StaticBitset.v
theories/StaticBitsetProofs.v
theories/StaticBitsetProps.v
theories/StringView.v
theories/SpecString.v
theories/StringViewProofs.v
theories/StringSearchProofs.v
theories/StringLastProofs.v
theories/StringOtherProofs.v
theories/StringPop.v
theories/StringPopProofs.v
theories/StringMoreProofs.v
theories/SpecStringOps.v
theories/StringZtProofs.v
theories/StringViewProps.v
theories/StringPopProps.v
theories/SeqContainers.v
theories/SpecSeq.v
theories/SeqProofs.v
theories/SeqProps.v
theories/Graph.v
theories/SpecGraph.v
theories/GraphProofs.v
theories/GraphWalkProofs.v
theories/GraphTopoProofs.v
theories/GraphMstProofs.v
theories/GraphBfsProofs.v
theories/GraphEndProofs.v
theories/GraphProps.v
theories/SpecMath.v
theories/Math.v
theories/CxMath.v
theories/MathProofs.v
theories/CxMathProofs.v
theories/CxPowProofs.v
theories/MathProps.v
theories/SpecHash.v
theories/Hash.v
theories/HashProofs.v
theories/HashWordProofs.v
theories/HashMetroProofs.v
theories/HashProps.v
theories/SpecRandom.v
theories/Random.v
theories/RandomProofs.v
theories/RandomProps.v
theories/SpecParse.v
theories/ParseTo.v
theories/ParseToProofs.v
theories/ParseSplitProofs.v
theories/ParseQuotedProofs.v
theories/ParseToProps.v
theories/ParserHelper.v
theories/ParserHelperProofs.v
theories/ParserHelperProps.v
theories/Atomics.v
theories/SpecAtomics.v
theories/AtomicsProofs.v
theories/AtomicsProps.v
theories/RcPtr.v
theories/SpecRc.v
theories/RcProofs.v
theories/RcPtrProps.v
theories/Pipelines.v
theories/SpecPipes.v
theories/PipelinesProofs.v
theories/PipelinesProps.v
theories/Vector.v
theories/SpecVector.v
theories/VectorProofs.v
theories/VectorProps.v
theories/Iterators.v
theories/SpecIterators.v
theories/IteratorsProofs.v
theories/IteratorsProps.v
theories/HashTables.v
theories/SpecHashTables.v
theories/HashTablesProofs.v
theories/PerfectHashProofs.v
theories/HashTablesProps.v
theories/Views.v
theories/SpecViews.v
theories/ViewsProofs.v
theories/ViewsProps.v
theories/Ownership.v
theories/SpecOwnership.v
theories/OwnershipProofs.v
theories/OwnershipProps.v
theories/Wrappers.v
theories/SpecWrappers.v
theories/WrappersProofs.v
theories/WrappersProps.v
theories/UintTypes.v
theories/SpecUint.v
theories/UintProofs.v
theories/UintProps.v
theories/OldVector.v
theories/SpecOldVector.v
theories/OldVectorProofs.v
theories/OldVectorProps.v
theories/OldArrays.v
theories/SpecOldArrays.v
theories/OldArraysProofs.v
theories/OldArraysProps.v
theories/OldMap.v
theories/SpecOldMap.v
theories/OldMapProofs.v
theories/OldMapProps.v
theories/TextUtil.v
theories/SpecTextUtil.v
theories/TextUtilProofs.v
theories/TextUtilProps.v
theories/StringView1.v
theories/SpecStringView1.v
theories/StringView1Proofs.v
theories/StringView1Props.v
theories/BoundedString.v
theories/SpecBoundedString.v
theories/BoundedStringProofs.v
theories/BoundedStringProps.v
theories/OldString.v
theories/SpecOldString.v
theories/OldStringProofs.v
theories/OldStringProps.v
theories/StringFmt.v
theories/SpecStringFmt.v
theories/StringFmtProofs.v
theories/StringFmtProps.v
theories/SharedFn.v
theories/SpecSharedFn.v
theories/SharedFnProofs.v
theories/SharedFnProps.v
theories/StackFn.v
theories/SpecStackFn.v
theories/StackFnProofs.v
theories/StackFnProps.v
theories/BoundedGraph.v
theories/SpecBoundedGraph.v
theories/BoundedGraphProofs.v
theories/BoundedGraphProps.v
theories/ParseArgs.v
theories/SpecParseArgs.v
theories/ParseArgsProofs.v
theories/ParseArgsProps.v
theories/SmallTools.v
theories/SpecSmallTools.v
theories/SmallToolsProofs.v
theories/SmallToolsProps.v
theories/Variants.v
theories/SpecVariants.v
theories/VariantsProofs.v
theories/VariantsProps.v
theories/FmtRange.v
theories/SpecFmtRange.v
theories/FmtRangeProofs.v
theories/FmtRangeProps.v
theories/AlgCx.v
theories/SpecAlgCx.v
theories/AlgCxProofs.v
theories/AlgCxProps.v
theories/CallTools.v
theories/SpecCallTools.v
theories/CallToolsProofs.v
theories/CallToolsProps.v
theories/MmapFile.v
theories/SpecMmapFile.v
theories/MmapFileProofs.v
theories/MmapFileProps.v
theories/Floats.v
theories/SpecFloats.v
theories/SpecFloatMath.v
theories/FloatsProofs.v
theories/FloatsProps.v
theories/FloatMath.v
theories/FloatMathProofs.v
theories/FloatTrigProofs.v
theories/SqrtProofs.v
theories/FloatBitsProofs.v
theories/FloatBitsProps.v
theories/Benchmark.v
theories/SpecBenchmark.v
theories/BenchmarkProofs.v
theories/BenchmarkProps.v
theories/RangeTools.v
theories/SpecRangeTools.v
theories/RangeToolsProofs.v
theories/RangeToolsProps.v
theories/RefTools.v
theories/SpecRefTools.v
theories/RefToolsProofs.v
theories/RefToolsProps.v
theories/OldRange.v
theories/SpecOldRange.v
theories/OldRangeProofs.v
theories/OldRangeProps.v
theories/Erased.v
theories/SpecErased.v
theories/ErasedProofs.v
theories/ErasedProps.v
theories/MiscTools.v
theories/SpecMiscTools.v
theories/MiscToolsProofs.v
theories/MiscToolsProps.v
theories/SmallClasses.v
theories/SpecSmallClasses.v
theories/SmallClassesProofs.v
theories/SmallClassesProps.v
theories/MoreTools.v
theories/SpecMoreTools.v
theories/MoreToolsProofs.v
theories/MoreToolsProps.v
theories/ContainerHelp.v
theories/SpecContainerHelp.v
theories/ContainerHelpProofs.v
theories/ContainerHelpProps.v
theories/Tuples.v
theories/SpecTuples.v
theories/TuplesProofs.v
theories/TuplesProps.v
theories/CStrings.v
theories/SpecCStrings.v
theories/CStringsProofs.v
theories/CStringsProps.v
theories/GraphOrder.v
theories/SpecGraphOrder.v
theories/GraphOrderProofs.v
theories/GraphOrderProps.v
theories/AlgExtract.v
theories/SpecAlgExtract.v
theories/AlgExtractProofs.v
theories/AlgExtractProps.v
theories/TopoRange.v
theories/SpecTopoRange.v
theories/TopoRangeProofs.v
theories/TopoRangeProps.v
theories/VectorThrow.v
theories/SpecVectorThrow.v
theories/VectorThrowProofs.v
theories/VectorThrowProps.v
theories/VectorThrowInsert.v
theories/SpecVectorThrowInsert.v
theories/VectorThrowInsertProofs.v
theories/VectorThrowInsertProps.v
theories/VectorThrowMove.v
theories/SpecVectorThrowMove.v
theories/VectorThrowMoveProofs.v
theories/VectorThrowMoveProps.v
theories/VectorThrowMany.v
theories/VectorThrowManyProofs.v
theories/VectorThrowManyProps.v
