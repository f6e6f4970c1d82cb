-Q theories Verif
theories/Base.v
theories/CompareModel.v
theories/CompareSpec.v
theories/CompareProofs.v
theories/CompareProps.v
theories/Machine.v
theories/StackSpec.v
theories/StackModel.v
theories/StackProofs.v
theories/StackProps.v
theories/HeapSpec.v
theories/HeapModel.v
theories/HeapProofs.v
theories/HeapProps.v
theories/Slice.v
theories/QueueSpec.v
theories/ArrayQueueModel.v
theories/ArrayQueueProofs.v
theories/ArrayQueueProps.v
theories/DLL.v
theories/ListQueueSpec.v
theories/ListQueueModel.v
theories/ListQueueProofs.v
theories/ListQueueProps.v
theories/ArrayListSpec.v
theories/ArrayListModel.v
theories/ArrayListProofs.v
theories/ArrayListProofs2.v
theories/ArrayListMem.v
theories/ArrayListProps.v
theories/GoMap.v
theories/HashSpec.v
theories/HashModel.v
theories/HashProofs.v
theories/HashProps.v
theories/DLLSeg.v
theories/Bind.v
theories/LinkedHashSpec.v
theories/LinkedHashModel.v
theories/LinkedHashProofs.v
theories/LinkedHashProps.v
theories/LinkedListSpec.v
theories/LinkedListModel.v
theories/LinkedListProofs.v
theories/LinkedListIter.v
theories/LinkedListProps.v
theories/BloomSpec.v
theories/BloomModel.v
theories/BloomProps.v
theories/OrderSpec.v
theories/SMapSpec.v
theories/AvlTree.v
theories/AvlModel.v
theories/SMapFacts.v
theories/AvlSpec.v
theories/AvlProofs.v
theories/AvlAny.v
theories/AvlStep.v
theories/AvlProps.v
theories/TreeSetSpec.v
theories/TreeSetModel.v
theories/TreeSetProofs.v
theories/TreeSetHeap.v
theories/TreeSetProps.v
theories/AvlIterModel.v
theories/AvlIterProofs.v
theories/AvlIterProps.v
theories/AvlsModel.v
theories/AvlsProofs.v
theories/AvlsProps.v
theories/IndexSpec.v
theories/IndexModel.v
theories/IndexProofs.v
theories/IndexProps.v
theories/IndexHeapModel.v
theories/IndexHeapProofs.v
theories/IndexHeapPutProofs.v
theories/IndexHeapReadProofs.v
theories/IndexHeapRemoveProofs.v
theories/IndexHeapCutProofs.v
theories/IndexHeapRangeProofs.v
theories/IndexHeapTrimProofs.v
theories/IndexHeapSplitProofs.v
theories/IndexHeapStepProofs.v
theories/WildSpec.v
theories/IndexWildProofs.v
theories/IndexHeapRunProofs.v
theories/IndexHeapProps.v
theories/IndexHeapFrameProofs.v
theories/IndexPoolSpec.v
theories/IndexPoolModel.v
theories/IndexPoolProofs.v
theories/IndexPoolProps.v
theories/IndexWildProps.v
theories/AvlWildProofs.v
theories/AvlWildProps.v
theories/StdSpec.v
theories/StdProofs.v
theories/StdProps.v
theories/IndexIterSpec.v
theories/IndexIterModel.v
theories/IndexIterProofs.v
theories/IndexIterProps.v
theories/OrderedMapSpec.v
theories/OrderedMapModel.v
theories/OrderedMapProps.v
theories/TreelistSpec.v
theories/TreelistModel.v
theories/TreelistLinks.v
theories/TreelistProofs.v
theories/TreelistSteps.v
theories/DeepProofs.v
theories/DeepQueueProofs.v
theories/DeepProps.v
theories/TreelistProps.v
theories/TreelistHeapModel.v
theories/TreelistHeapProofs.v
theories/TreelistHeapPutProofs.v
theories/TreelistHeapRemoveProofs.v
theories/TreelistHeapRangeProofs.v
theories/TreelistHeapTrimProofs.v
theories/TreelistHeapStepProofs.v
theories/TreelistHeapProps.v
theories/TreelistChangeSpec.v
theories/TreelistChangeProofs.v
theories/TreelistHeapIterModel.v
theories/TreelistHeapIterProofs.v
theories/TreelistHeapIterProps.v
theories/TreelistSetModel.v
theories/TreelistSetProofs.v
theories/TreelistSetProps.v
theories/TreelistMoveProofs.v
theories/TreelistPoolSpec.v
theories/TreelistPoolModel.v
theories/TreelistPoolMoveProofs.v
theories/TreelistPoolBuildProofs.v
theories/TreelistPoolProofs.v
theories/TreelistPoolProps.v
theories/SignProofs.v
theories/SignProps.v
theories/FloatModel.v
theories/FloatProps.v
theories/TreelistIterModel.v
theories/TreelistIterProofs.v
theories/TreelistIterProps.v
theories/PrioSpec.v
theories/PrioModel.v
theories/PrioProofs.v
theories/PrioIterProofs.v
theories/PrioProps.v
theories/AstarSpec.v
theories/AstarModel.v
theories/AstarProofs.v
theories/AstarMore.v
theories/AstarProps.v
theories/AstarOwnProps.v
theories/AstarTextProofs.v
theories/AstarTextProps.v
theories/SkipSpec.v
theories/SkipModel.v
theories/SkipProofs.v
theories/SkipOps.v
theories/SkipSets.v
theories/SkipProps.v
theories/SkipChangeSpec.v
theories/SkipChangeModel.v
theories/SkipChangeProofs.v
theories/SkipChangeProps.v
theories/SkipConc.v
theories/SkipConcProofs.v
theories/SkipConcProps.v
theories/StatsModel.v
theories/StatsSpec.v
theories/StatsProps.v
theories/ExpModel.v
theories/ExpProps.v
theories/ShiftModel.v
theories/ShiftProps.v
theories/CostModel.v
theories/CostProps.v
theories/GrowthSpec.v
theories/GrowthModel.v
theories/GrowthProofs.v
theories/GrowthProps.v
theories/PrintSpec.v
theories/PrintModel.v
theories/PrintProofs.v
theories/PrintProps.v
theories/SkipWildSpec.v
theories/SkipWildProofs.v
theories/SkipWildProps.v
theories/PrioWildSpec.v
theories/PrioWildProofs.v
theories/PrioWildProps.v
theories/TreelistWildSpec.v
theories/TreelistWildProofs.v
theories/TreelistWildHeapProofs.v
theories/TreelistWildProps.v
theories/HoldSpec.v
theories/HoldProofs.v
theories/HoldTreeProofs.v
theories/HoldSkipProofs.v
theories/HoldQueueProofs.v
theories/HoldProps.v
theories/RotSpec.v
theories/AvlCountModel.v
theories/AvlCountProofs.v
theories/AvlOnceProofs.v
theories/CountProps.v
theories/CutSpec.v
theories/IndexCountModel.v
theories/IndexCountProofs.v
theories/IndexShapeProofs.v
theories/IndexCountProps.v
theories/TreelistShapeSpec.v
theories/TreelistCountModel.v
theories/TreelistCountProofs.v
theories/TreelistShapeProofs.v
theories/TreelistCountProps.v
theories/ShiftCountModel.v
theories/TwinSpec.v
theories/TwinProofs.v
theories/TwinProps.v
theories/ExpHeapModel.v
theories/ExpHeapSpec.v
theories/ExpHeapProofs.v
theories/ExpHeapRotProofs.v
theories/ExpHeapRebProofs.v
theories/ExpHeapPutProofs.v
theories/ExpHeapInsProofs.v
theories/ExpHeapDelProofs.v
theories/ExpHeapRemProofs.v
theories/ExpHeapTopProofs.v
theories/ExpHeapProps.v
theories/ExpIterModel.v
theories/ExpWildSpec.v
theories/ExpWildProofs.v
theories/ExpWildProps.v
theories/LinkedListStaleSpec.v
theories/LinkedListStaleProofs.v
theories/LinkedListStaleProps.v
theories/ShiftHeapModel.v
theories/ShiftHeapSpec.v
theories/ShiftHeapProofs.v
theories/ShiftHeapTopProofs.v
theories/ShiftHeapProps.v
theories/AvlHeapModel.v
theories/AvlHeapSpec.v
theories/AvlHeapProofs.v
theories/AvlHeapRotProofs.v
theories/AvlHeapOpProofs.v
theories/AvlHeapTopProofs.v
theories/AvlHeapProps.v
theories/AvlHeapIterModel.v
theories/AvlHeapIterSpec.v
theories/AvlHeapIterProofs.v
theories/AvlHeapIterTopProofs.v
theories/AvlHeapIterProps.v
