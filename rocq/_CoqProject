-Q theories Verif
theories/Base.v
theories/Scalar.v
theories/Spec.v
theories/Dense.v
theories/Sparse.v
theories/SumFacts.v
theories/LoopFacts.v
theories/CsrFacts.v
theories/Rows.v
theories/SparseProofs.v
theories/TransposeProofs.v
theories/Accum.v
theories/ProductProofs.v
theories/DenseFacts.v
theories/Examples.v
theories/PropProducts.v
theories/EntrywiseProofs.v
theories/EntrywiseMat.v
theories/SparseMore.v
theories/PropSparse.v
theories/SortProofs.v
theories/SubProofs.v
theories/SparseHistory.v
theories/HistoryProofs.v
theories/PropSparse2.v
theories/DenseProofs.v
theories/DenseLinks.v
theories/PropDense.v
theories/Coo.v
theories/CooSpec.v
theories/CooProofs.v
theories/CooMore.v
theories/PropCoo.v
theories/Lil.v
theories/LilSpec.v
theories/LilProofs.v
theories/LilMore.v
theories/LilExamples.v
theories/PropLil.v
theories/Vec.v
theories/VecSpec.v
theories/VecProofs.v
theories/VecState.v
theories/VecMore.v
theories/VecNum.v
theories/VecLinks.v
theories/PropVec.v
theories/Block.v
theories/BlockSpec.v
theories/BlockFacts.v
theories/BlockProofs.v
theories/BlockMore.v
theories/BlockOp.v
theories/BlockVec.v
theories/BlockLinks.v
theories/PropBlock.v
theories/Solver.v
theories/SolverSpec.v
theories/SolverProofs.v
theories/SolverMinres.v
theories/SolverMore.v
theories/SolverEnergy.v
theories/KrylovFacts.v
theories/SolverConverge.v
theories/SolverLanczos.v
theories/SolverReuse.v
theories/ScalarQ.v
theories/ScalarR.v
theories/SolverLinks.v
theories/SolverExamples.v
theories/PropSolver.v
theories/Text.v
theories/Parser.v
theories/ParserSpec.v
theories/TextProofs.v
theories/ParserProofs.v
theories/ParserMore.v
theories/ParserGraph.v
theories/ParserBinary.v
theories/Double.v
theories/DoubleSpec.v
theories/DoubleProofs.v
theories/DoubleText.v
theories/DoubleMore.v
theories/ParserLinks.v
theories/PropParser.v
theories/Args.v
theories/ArgsSpec.v
theories/ArgsProofs.v
theories/PropArgs.v
theories/Partition.v
theories/PartitionSpec.v
theories/PartitionProofs.v
theories/Eigen.v
theories/EigenSpec.v
theories/EigenProofs.v
theories/SparseSolve.v
theories/SparseSolveSpec.v
theories/SparseSolveProofs.v
theories/PropModules.v
theories/Par.v
theories/ParSpec.v
theories/ParProofs.v
theories/ParAddProofs.v
theories/ParSplitProofs.v
theories/ParVecProofs.v
theories/ParOpProofs.v
theories/ParLinks.v
theories/ParExamples.v
theories/PropPar.v
theories/Threads.v
theories/ThreadProofs.v
theories/HypreOps.v
theories/HypreSpec.v
theories/HypreThreads.v
theories/HypreExt.v
theories/HypreSplit.v
theories/HypreRows.v
theories/HypreProofs.v
theories/HypreValue.v
theories/HypreLinks.v
theories/PropHypre.v
theories/HypreTranspose.v
theories/HypreTransposeSpec.v
theories/HypreSort.v
theories/HypreComm.v
theories/HypreTransposeProofs.v
theories/HypreRapProofs.v
theories/HypreNorms.v
theories/HypreNormsSpec.v
theories/HypreNormsProofs.v
theories/PropHypre2.v
theories/ParLife.v
theories/ParLifeSpec.v
theories/ParLifeProofs.v
theories/ParLifeLinks.v
theories/ParLifeExamples.v
theories/PropParLife.v
theories/DenseFactor.v
theories/DenseFactorSpec.v
theories/DenseFactorProofs.v
theories/PropDenseFactor.v
theories/ParMatvec.v
theories/ParMatvecSpec.v
theories/ParMatvecProofs.v
theories/PropParMatvec.v
theories/Life.v
theories/LifeSpec.v
theories/LifeProofs.v
theories/LifeMore.v
theories/PropLife.v
theories/I32.v
theories/I32Spec.v
theories/I32Proofs.v
theories/I32Par.v
theories/I32ParProofs.v
theories/PropI32.v
theories/VecMat.v
theories/VecMatSpec.v
theories/VecMatProofs.v
theories/PropVecMat.v
theories/Print.v
theories/PrintSpec.v
theories/PrintProofs.v
theories/PrintFixed.v
theories/PrintMore.v
theories/PropPrint.v
theories/CommPkg.v
theories/CommPkgSpec.v
theories/CommPkgProofs.v
theories/PropCommPkg.v
theories/Lobpcg.v
theories/LobpcgSpec.v
theories/LobpcgProofs.v
theories/PropLobpcg.v
theories/RoundSpec.v
theories/RoundSumSpec.v
theories/RoundFacts.v
theories/RoundProofs.v
theories/RoundProduct.v
theories/RoundSum.v
theories/RoundNormSpec.v
theories/RoundNorm.v
theories/RoundWorldSpec.v
theories/RoundWorld.v
theories/RoundNormWorldSpec.v
theories/RoundNormWorld.v
theories/PropRound.v
theories/DenseOverloads.v
theories/PropDense2.v
theories/ShortSpec.v
theories/ShortProofs.v
theories/ShortMore.v
theories/PropShort.v
theories/ProgramSpec.v
theories/ProgramProofs.v
theories/PropProgram.v
theories/Concurrent.v
theories/ConcurrentSpec.v
theories/ConcurrentProofs.v
theories/ConcurrentRaces.v
theories/PropConcurrent.v
theories/Spmd.v
theories/SpmdSpec.v
theories/SpmdProofs.v
theories/SpmdSolvers.v
theories/SpmdMatrix.v
theories/PropSpmd.v
theories/Alloc.v
theories/AllocSpec.v
theories/AllocProofs.v
theories/AllocMore.v
theories/PropAlloc.v
theories/SplitSpec.v
theories/SplitSolve.v
theories/SplitAssembled.v
theories/PropSplit.v
theories/SolverObj.v
theories/SolverObjSpec.v
theories/SolverObjProofs.v
theories/SolverObjMore.v
theories/PropSolverObj.v
theories/LuQr.v
theories/LuQrSpec.v
theories/LuProofs.v
theories/LuMore.v
theories/LuLinks.v
theories/LuExamples.v
theories/PropLu.v
theories/QrHeap.v
theories/QrProofs.v
theories/QrMore.v
theories/QrEig.v
theories/QrExamples.v
theories/PropQr.v
theories/Basics.v
theories/BasicsSpec.v
theories/LapProofs.v
theories/LapMore.v
theories/LapIncidence.v
theories/PropLaplacian.v
theories/PowerProofs.v
theories/PowerMore.v
theories/PowerLinks.v
theories/PropPower.v
theories/ParVec.v
theories/ParVecSpec.v
theories/ParVecMore.v
theories/ParVecNorm.v
theories/PropParVec.v
theories/RoundTriFacts.v
theories/RoundTriSpec.v
theories/RoundTri.v
theories/RoundLu.v
theories/RoundLuSolve.v
theories/PropRoundLu.v
theories/Returns.v
theories/ReturnsSpec.v
theories/ReturnsProofs.v
theories/PropReturns.v
theories/KrylovSpec.v
theories/SolverOptimal.v
theories/PropOptimal.v
theories/SolverMinOpt.v
theories/PropMinOpt.v
theories/RateSpec.v
theories/SolverRate.v
theories/SolverRateR.v
theories/PropRate.v
theories/SolverBound.v
theories/PropBound.v
theories/Access.v
theories/AccessSpec.v
theories/AccessProofs.v
theories/PropAccess.v
theories/RejectProofs.v
theories/PropReject.v
