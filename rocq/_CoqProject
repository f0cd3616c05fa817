-Q theories Verif
theories/Base.v
theories/Ops.v
theories/Tables.v
theories/NodeManager.v
theories/Tools.v
theories/Sift.v
theories/DiagramManager.v
theories/Reliability.v
theories/World.v
theories/Heap.v
theories/Inv.v
theories/InvLemmas.v
theories/Prim.v
theories/TabLemmas.v
theories/GC.v
theories/Make.v
theories/Build.v
theories/Canon.v
theories/Apply.v
theories/Api.v
theories/Deferred.v
theories/Constr.v
theories/Expr.v
theories/DpldProof.v
theories/MnfSpec.v
theories/MnfProof.v
theories/VecSpec.v
theories/Vec.v
theories/Eval.v
theories/Fold.v
theories/SortProof.v
theories/SwapProof.v
theories/SwapNode.v
theories/SwapVar.v
theories/SiftProof.v
theories/WorldSpec.v
theories/WorldProof.v
theories/AutoSim.v
theories/OpSpec.v
theories/OpProof.v
theories/Ctor.v
theories/History.v
theories/Reduce.v
theories/ReduceWorld.v
theories/PropsBase.v
theories/Chain.v
theories/Examples.v
theories/PropsBase2.v
theories/PropsCore.v
theories/PropsCore2.v
theories/Queries.v
theories/Trav.v
theories/TravLevel.v
theories/QuerySpec.v
theories/QueryProof.v
theories/Minimal.v
theories/PropsQuery.v
theories/Refuted.v
theories/NodeBits.v
theories/PropsOps.v
theories/PropsReorder.v
theories/PropsReduce.v
theories/CacheProof.v
theories/FloatProof.v
theories/PropsTables.v
theories/Pla.v
theories/PlaSpec.v
theories/PlaProof.v
theories/FromPla.v
theories/PropsPla.v
theories/Mcvs.v
theories/VectorSpec.v
theories/McvsProof.v
theories/PropsDpld.v
theories/Prob.v
theories/ProbSpec.v
theories/Expect.v
theories/ProbProof.v
theories/CountProof.v
theories/ProbFloat.v
theories/PropsProb.v
theories/Tsl.v
theories/TslProof.v
theories/TslProof2.v
theories/PropsTsl.v
theories/PropsFussell.v
theories/PropsFussell2.v
theories/PropsCases.v
theories/Links.v
theories/LinksProof.v
theories/TableSpec.v
theories/LinksWorld.v
theories/PropsTable.v
theories/Pool.v
theories/PoolSpec.v
theories/PoolProof.v
theories/PropsPool.v
theories/Sizes.v
theories/SizesProof.v
theories/PropsSizes.v
theories/Symbolic.v
theories/SymbolicProof.v
theories/PropsSymbolic.v
theories/PropsWord.v
theories/RoundProof.v
theories/LevelRound.v
theories/PropsRound.v
theories/DotSpec.v
theories/Dot.v
theories/DotText.v
theories/DotProof.v
theories/PropsDot.v
theories/Arrays.v
theories/PropsArray.v
theories/Cost.v
theories/CostSpec.v
theories/CostProof.v
theories/PropsCost.v
theories/AutoSpec.v
theories/AutoProof.v
theories/PropsAuto.v
theories/Trace.v
theories/TraceManager.v
theories/PropsTrace.v
theories/Keeps.v
theories/PoolTrace.v
theories/PropsPoolTrace.v
theories/TslIter.v
theories/TslIterProof.v
theories/TslDiagram.v
theories/PropsTslIter.v
theories/PaceProof.v
theories/PropsPace.v
theories/Buckets.v
theories/BucketsProof.v
theories/PropsBuckets.v
theories/Queens.v
theories/QueensSpec.v
theories/QueensProof.v
theories/QueensCount.v
theories/CountSkip.v
theories/PropsQueens.v
theories/NoGarbage.v
theories/PropsNoGarbage.v
theories/Keys.v
theories/KeysSpec.v
theories/KeysProof.v
theories/PropsKeys.v
theories/PropsGrowth.v
theories/Ndebug.v
theories/PropsNdebug.v
theories/Calls.v
theories/CallsProof.v
theories/PropsCalls.v
theories/PropsBound.v
theories/WordSort.v
theories/PropsWordSort.v
theories/PropsIso.v
theories/PropsManagers.v
theories/PropsTree.v
