-Q theories Verif
theories/Base.v
theories/VectorModel.v
theories/VectorSpec.v
theories/VectorProofs.v
theories/VecProg.v
theories/VectorWorld.v
theories/VectorExtra.v
theories/PropVector.v
theories/Adapter.v
theories/StackModel.v
theories/StackSpec.v
theories/StackProofs.v
theories/PropStack.v
theories/LRun.v
theories/HeapModel.v
theories/HeapSpec.v
theories/HeapProofs.v
theories/PropHeap.v
theories/DSUModel.v
theories/DSUSpec.v
theories/DSUProofs.v
theories/PropDSU.v
theories/ArrayModel.v
theories/ArraySpec.v
theories/ArrayProofs.v
theories/PropArray.v
theories/StringModel.v
theories/StringSpec.v
theories/StringProofs.v
theories/PropString.v
theories/Hist.v
theories/Alloc.v
theories/AllocProofs.v
theories/ListModel.v
theories/ListSpec.v
theories/ListProofs.v
theories/ListHist.v
theories/ListHist2.v
theories/ListHist3.v
theories/ListHist4.v
theories/ListRefute.v
theories/PropList.v
theories/DequeModel.v
theories/DequeSpec.v
theories/DequeProofs.v
theories/DequeResize.v
theories/DequeHist.v
theories/DequeHist2.v
theories/QueueModel.v
theories/QueueSpec.v
theories/QueueProofs.v
theories/DequeRefute.v
theories/PropDeque.v
theories/DequeGeo.v
theories/DequeDrift.v
theories/PropDequeGrow.v
theories/DequeIterModel.v
theories/DequeIterSpec.v
theories/DequeIterProofs.v
theories/PropDequeIter.v
theories/SMAModel.v
theories/SMASpec.v
theories/SMAProofs.v
theories/SMAInv.v
theories/SMAOps.v
theories/SMAAlloc.v
theories/SMAMerge.v
theories/SMAHist.v
theories/SMAMain.v
theories/SMARefute.v
theories/PropSMA.v
theories/TreeModel.v
theories/TreeSpec.v
theories/TreeAlloc.v
theories/TreeBase.v
theories/TreeSets.v
theories/TreeRot.v
theories/TreeIns.v
theories/TreeZip.v
theories/TreeSwap.v
theories/TreeDel.v
theories/TreeErase.v
theories/TreeIter.v
theories/TreeTag.v
theories/TreeObj.v
theories/TreeWorld.v
theories/TreeWSpec.v
theories/TreeHist.v
theories/TreeRefute.v
theories/MapHist.v
theories/TreePush.v
theories/TreePost.v
theories/TreeTop.v
theories/PropTree.v
theories/BstWorld.v
theories/BstSpec.v
theories/BstObj.v
theories/BstDel.v
theories/BstHist.v
theories/BstRefute.v
theories/PropBst.v
theories/ArithModel.v
theories/ArithSpec.v
theories/ArithProofs.v
theories/PropArith.v
theories/VecFailModel.v
theories/VecFailProofs.v
theories/PropVecFail.v
theories/DSUDepth.v
theories/PropDSUDepth.v
theories/TreeHeight.v
theories/PropTreeCost.v
theories/VecPoolModel.v
theories/VecPoolSpec.v
theories/VecPoolProofs.v
theories/PropVecPool.v
theories/CostSpec.v
theories/HeapCost.v
theories/PropHeapCost.v
theories/PoolAdapterSpec.v
theories/PoolAdapterProofs.v
theories/PropPoolAdapter.v
theories/ListIterModel.v
theories/ListIterSpec.v
theories/ListIterProofs.v
theories/PropListIter.v
theories/ListAlloc.v
theories/PropAlloc.v
theories/SMANodes.v
theories/SMANodesProofs.v
theories/StaticLists.v
theories/PropStatic.v
theories/TreeIterModel.v
theories/TreeIterSpec.v
theories/TreeIterProofs.v
theories/PropTreeIter.v
theories/TreeRoom.v
theories/PropTreeAlloc.v
theories/BstDupSpec.v
theories/BstDup.v
theories/PropBstDup.v
theories/DequeLifeSpec.v
theories/DequeLife.v
theories/PropDequeLife.v
theories/LooseOrder.v
theories/PropLoose.v
theories/VecIterModel.v
theories/VecIterSpec.v
theories/VecIterProofs.v
theories/VecIter.v
theories/PropVecIter.v
theories/StackOtherModel.v
theories/StackOtherSpec.v
theories/StackOther.v
theories/PropStackOther.v
theories/DequeFailModel.v
theories/DequeFail.v
theories/PropDequeFail.v
theories/AlgoIterModel.v
theories/AlgoIterSpec.v
theories/AlgoIter.v
theories/AlgoIterTree.v
theories/PropAlgoIter.v
theories/MapIterModel.v
theories/MapIterSpec.v
theories/MapIterProofs.v
theories/PropMapIter.v
theories/DSUUnionModel.v
theories/DSUUnionSpec.v
theories/DSUUnionProofs.v
theories/PropDSUUnion.v
theories/TreeRefModel.v
theories/TreeRefSpec.v
theories/TreeRefProofs.v
theories/PropTreeRef.v
theories/DequeRefModel.v
theories/DequeRefSpec.v
theories/DequeRefProofs.v
theories/PropDequeRef.v
theories/SelfMove.v
theories/PropSelfMove.v
theories/XStackModel.v
theories/XStackSpec.v
theories/XStackProofs.v
theories/PropXStack.v
theories/DSUSignModel.v
theories/DSUSignSpec.v
theories/DSUSignProofs.v
theories/PropDSUSign.v
theories/DSURefModel.v
theories/DSURefSpec.v
theories/DSURefFind.v
theories/DSURefUnion.v
theories/DSURefProofs.v
theories/DSURefHist.v
theories/PropDSURef.v
theories/HeapRefModel.v
theories/HeapRefSpec.v
theories/HeapRefProofs.v
theories/HeapRefHist.v
theories/PropHeapRef.v
theories/BstIterModel.v
theories/BstIterSpec.v
theories/BstIterProofs.v
theories/BstIterHist.v
theories/BstIterRun.v
theories/BstIterTop.v
theories/PropBstIter.v
theories/ListRefModel.v
theories/ListRefSpec.v
theories/ListRefProofs.v
theories/PropListRef.v
theories/ListHeldSpec.v
theories/ListHeldProofs.v
theories/PropListHeld.v
theories/WalkModel.v
theories/WalkSpec.v
theories/WalkProofs.v
theories/WalkWorld.v
theories/PropWalk.v
theories/ListEachModel.v
theories/ListEachSpec.v
theories/ListEachProofs.v
theories/ListEachTop.v
theories/PropListEach.v
theories/IterMoveModel.v
theories/IterMoveSpec.v
theories/BstMoveProofs.v
theories/AvlMoveProofs.v
theories/IterMoveTop.v
theories/PropIterMove.v
theories/TreeEachModel.v
theories/TreeEachSpec.v
theories/TreeEachProofs.v
theories/TreeEachTop.v
theories/PropTreeEach.v
theories/VecEachModel.v
theories/VecEachSpec.v
theories/VecEachProofs.v
theories/VecEachTop.v
theories/PropVecEach.v
theories/DqMoveModel.v
theories/DqMoveSpec.v
theories/DqMoveProofs.v
theories/DqMoveTop.v
theories/PropDqMove.v
theories/IntModel.v
theories/IntSpec.v
theories/IntProofs.v
theories/PropInt.v
theories/VecBytesModel.v
theories/VecBytesSpec.v
theories/VecBytesProofs.v
theories/PropVecBytes.v
theories/DqEachModel.v
theories/DqEachSpec.v
theories/DqEachProofs.v
theories/DqEachTop.v
theories/PropDqEach.v
theories/KeyEachModel.v
theories/KeyEachSpec.v
theories/KeyEachProofs.v
theories/KeyEachTop.v
theories/PropKeyEach.v
theories/StackRefModel.v
theories/StackRefSpec.v
theories/StackRefProofs.v
theories/PropStackRef.v
theories/IntVecModel.v
theories/IntVecSpec.v
theories/IntVecProofs.v
theories/IntVecLimit.v
theories/IntVecExact.v
theories/IntStrSpec.v
theories/IntStrProofs.v
theories/PropIntVec.v
theories/IntDeqModel.v
theories/IntDeqSpec.v
theories/IntDeqProofs.v
theories/PropIntDeq.v
