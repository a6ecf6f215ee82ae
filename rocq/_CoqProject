-Q theories Verif
theories/Machine.v
theories/Protocol.v
theories/Support.v
theories/Types.v
theories/Ratio.v
theories/Homographic.v
theories/Combine.v
theories/Lib.v
theories/Output.v
theories/Spec.v
theories/SpecEnd.v
theories/Upto.v
theories/SeqProofs.v
theories/Good.v
theories/RatioProofs.v
theories/SupportProofs.v
theories/HomProofs.v
theories/HomValue.v
theories/HomGood.v
theories/CombProofs.v
theories/CombValue.v
theories/CombGood.v
theories/LibProofs.v
theories/ApiProofs.v
theories/ArithProofs.v
theories/BuildProofs.v
theories/RecipProofs.v
theories/LengthProofs.v
theories/SpecReal.v
theories/RealProofs.v
theories/DivProofs.v
theories/Main.v
theories/SpecMain.v
theories/OutputProofs.v
theories/MainProofs.v
theories/SpecHist.v
theories/History.v
theories/HistProofs.v
theories/FinalProofs.v
theories/ExampleTools.v
theories/EndProofs.v
theories/SpecRelease.v
theories/ReleaseProofs.v
theories/FeedProofs.v
theories/LongProofs.v
theories/SpecLong.v
theories/LongCombine.v
theories/Unwind.v
theories/SpecUnwind.v
theories/UnwindProofs.v
theories/Nesting.v
theories/SpecNest.v
theories/NestProofs.v
theories/SpecSize.v
theories/SizeProofs.v
theories/SpecWork.v
theories/WorkProofs.v
theories/SpecLazy.v
theories/LazyProofs.v
theories/EnoughProofs.v
theories/SpecSmall.v
theories/SmallProofs.v
theories/SpecTell.v
theories/TellProofs.v
theories/SpecAlike.v
theories/AlikeProofs.v
theories/SoonProofs.v
theories/SpecWidth.v
theories/WidthProofs.v
theories/SpecPrecise.v
theories/PreciseProofs.v
theories/ExactProofs.v
theories/SoonCombine.v
theories/SpecApart.v
theories/ApartProofs.v
theories/SpecFormula.v
theories/FormulaProofs.v
theories/Heap.v
theories/SpecHeap.v
theories/HeapProofs.v
theories/HeapUnwind.v
theories/SpecHeapUnwind.v
theories/HeapUnwindProofs.v
theories/TestSuite.v
theories/TestProofs.v
theories/SpecEffort.v
theories/EffortProofs.v
theories/SpecLowest.v
theories/LowestProofs.v
theories/SpecScale.v
theories/ScaleProofs.v
theories/UnitTables.v
theories/UnitTests.v
theories/UnitProofs.v
theories/NeutralProofs.v
theories/SpecSame.v
theories/SameProofs.v
theories/SpecLaws.v
theories/LawsProofs.v
theories/MoveProofs.v
theories/SpecFactor.v
theories/FactorProofs.v
theories/LongestProofs.v
theories/SpecWorth.v
theories/WorthProofs.v
theories/PropRatio.v
theories/PropReal.v
theories/PropCompare.v
theories/PropArith.v
theories/PropEgest.v
theories/PropConsume.v
theories/PropBuilds.v
theories/PropHistory.v
theories/PropRelease.v
theories/PropEnd.v
theories/PropOutput.v
theories/PropFeed.v
theories/PropLong.v
theories/PropUnwind.v
theories/PropNest.v
theories/PropSize.v
theories/PropWork.v
theories/PropLazy.v
theories/PropSmall.v
theories/PropTell.v
theories/PropAlike.v
theories/PropSoon.v
theories/PropWidth.v
theories/PropPrecise.v
theories/PropExact.v
theories/PropWait.v
theories/PropApart.v
theories/PropFormula.v
theories/PropHeap.v
theories/PropHeapUnwind.v
theories/PropTests.v
theories/PropEffort.v
theories/PropLowest.v
theories/PropScale.v
theories/PropUnit.v
theories/PropNeutral.v
theories/PropSame.v
theories/PropSwap.v
theories/PropLaws.v
theories/PropMove.v
theories/PropFactor.v
theories/PropLongest.v
theories/SpecRate.v
theories/RateProofs.v
theories/PropWorth.v
theories/MirrorProofs.v
theories/PropMirror.v
theories/ReachProofs.v
theories/PropReach.v
theories/FewProofs.v
theories/PropFew.v
theories/SpecLog.v
theories/LogProofs.v
theories/PropLog.v
theories/PropShort.v
