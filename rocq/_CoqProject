-Q theories Verif
theories/Forest/Model.v
theories/Forest/Spec.v
theories/Forest/Rep.v
theories/Forest/ProofWord.v
theories/Forest/ProofHeap.v
theories/Forest/ProofOps.v
theories/Forest/ProofOps2.v
theories/Forest/ProofTree.v
theories/Forest/ProofEdge.v
theories/Forest/ProofCopy.v
theories/Forest/ProofCopy2.v
theories/Forest/ProofIter.v
theories/Forest/ProofIter2.v
theories/Forest/ProofAlg.v
theories/Forest/World.v
theories/Forest/WorldSpec.v
theories/Forest/ProofWorld.v
theories/Forest/ProofMisc.v
theories/Forest/Example.v
theories/Forest/ProofFinal.v
theories/Forest/ProofFinal2.v
theories/Forest/ProofRefute.v
theories/Forest/Props1.v
theories/Forest/Props2.v
theories/Algorithm/Model.v
theories/Algorithm/Proof.v
theories/Algorithm/Props.v
theories/PreExit/Model.v
theories/PreExit/Spec.v
theories/PreExit/Proof.v
theories/PreExit/Props.v
theories/Tuple/Model.v
theories/Tuple/Proof.v
theories/Tuple/Props.v
theories/Annotate/Model.v
theories/Annotate/Expr.v
theories/Annotate/Props.v
theories/Progress/Model.v
theories/Progress/Proof.v
theories/Progress/Props.v
theories/Timer/Model.v
theories/Timer/Proof.v
theories/Timer/ExecuteAt.v
theories/Timer/ProofEA.v
theories/Timer/Props.v
theories/Serial/Model.v
theories/Serial/Proof.v
theories/Serial/Props.v
theories/Task/Model.v
theories/Task/Spec.v
theories/Task/Proof.v
theories/Task/Props.v
theories/Lib/Perm.v
theories/Executor/Queue.v
theories/Executor/QueueSpec.v
theories/Executor/QueueProof.v
theories/Executor/Pool.v
theories/Executor/PoolProof.v
theories/Executor/PoolInv.v
theories/Executor/PropsQueue.v
theories/Executor/PoolWake.v
theories/Executor/PoolThm.v
theories/Executor/PoolBound.v
theories/Executor/PropsPool.v
theories/Executor/PrioSpec.v
theories/Executor/PoolPrio.v
theories/Executor/PropsPrio.v
theories/Executor/Sizes.v
theories/Executor/SizesProof.v
theories/Executor/PropsSizes.v
theories/Future/Model.v
theories/Future/Spec.v
theories/Future/Step.v
theories/Future/Lin.v
theories/Future/LinInv.v
theories/Future/Loc.v
theories/Future/LocInv.v
theories/Future/Hist.v
theories/Future/Count.v
theories/Future/Trace.v
theories/Future/Moved.v
theories/Future/Order.v
theories/Future/Detach.v
theories/Future/Quiet.v
theories/Future/Thm.v
theories/Future/PropsFuture.v
theories/Future/Ready.v
theories/Future/ReadySpec.v
theories/Future/ReadyProof.v
theories/Future/PropsReady.v
theories/When/Model.v
theories/When/Spec.v
theories/When/Proof.v
theories/When/Inv.v
theories/When/Props.v
theories/Await/Model.v
theories/Await/Spec.v
theories/Await/Proof.v
theories/Await/ForModel.v
theories/Await/ForSpec.v
theories/Await/ForProof.v
theories/Await/Props.v
theories/Channel/Queue.v
theories/Channel/QueueProof.v
theories/Channel/Model.v
theories/Channel/Sum.v
theories/Channel/Inv.v
theories/Channel/InvStep.v
theories/Channel/InvStep2.v
theories/Channel/InvStep3.v
theories/Channel/InvRun.v
theories/Channel/Moves.v
theories/Channel/Spec.v
theories/Channel/Trace.v
theories/Channel/TraceStep.v
theories/Channel/TraceRun.v
theories/Channel/TraceMore.v
theories/Channel/Exact.v
theories/Channel/Reach.v
theories/Channel/Flow.v
theories/Channel/Rest.v
theories/Channel/Hung.v
theories/Channel/Facts.v
theories/Channel/Sched.v
theories/Channel/Term.v
theories/Channel/Props.v
theories/Channel/AnyInv.v
theories/Channel/AnyRun.v
theories/Channel/AnyProof.v
theories/Channel/AnyTerm.v
theories/Channel/PropsAny.v
theories/Process/Model.v
theories/Process/Spec.v
theories/Process/Count.v
theories/Process/Move.v
theories/Process/Inv.v
theories/Process/Trace.v
theories/Process/Final.v
theories/Process/Rest.v
theories/Process/Wake.v
theories/Process/Props.v
theories/Process/PropsUse.v
theories/Unique/Model.v
theories/Unique/Spec.v
theories/Unique/Inv.v
theories/Unique/Trace.v
theories/Unique/Final.v
theories/Unique/Props.v
theories/Coro/Model.v
theories/Coro/Spec.v
theories/Coro/Inv.v
theories/Coro/Final.v
theories/Coro/Trace.v
theories/Coro/Rest.v
theories/Coro/Props.v
theories/Lone/Model.v
theories/Lone/Spec.v
theories/Lone/Inv.v
theories/Lone/Trace.v
theories/Lone/Final.v
theories/Lone/Props.v
theories/SerialLife/Model.v
theories/SerialLife/Spec.v
theories/SerialLife/Proof.v
theories/SerialLife/Final.v
theories/SerialLife/Props.v
theories/Exit/Model.v
theories/Exit/Spec.v
theories/Exit/Proof.v
theories/Exit/Final.v
theories/Exit/Props.v
theories/PoolWait/Model.v
theories/PoolWait/Spec.v
theories/PoolWait/View.v
theories/PoolWait/Inv.v
theories/PoolWait/Cover.v
theories/PoolWait/Due.v
theories/PoolWait/Trace.v
theories/PoolWait/Final.v
theories/PoolWait/Ends.v
theories/PoolWait/Props.v
theories/PoolJoin/Model.v
theories/PoolJoin/Spec.v
theories/PoolJoin/View.v
theories/PoolJoin/Inv.v
theories/PoolJoin/Cover.v
theories/PoolJoin/Trace.v
theories/PoolJoin/Joined.v
theories/PoolJoin/Watch.v
theories/PoolJoin/Awaits.v
theories/PoolJoin/Final.v
theories/PoolJoin/Ends.v
theories/PoolJoin/Props.v
theories/Signal/Model.v
theories/Signal/Spec.v
theories/Signal/Proof.v
theories/Signal/Props.v
theories/Race/Model.v
theories/Race/Spec.v
theories/Race/Proof.v
theories/Race/Props.v
theories/Counters/Model.v
theories/Counters/Spec.v
theories/Counters/Proof.v
theories/Counters/Props.v
theories/Forest/Throw.v
theories/Forest/ThrowSpec.v
theories/Forest/ThrowProof.v
theories/Forest/ThrowRefute.v
theories/Forest/PropsThrow.v
theories/Forest/SelfProof.v
theories/Forest/PropsSelf.v
theories/Nodes/Model.v
theories/Nodes/Spec.v
theories/Nodes/Proof.v
theories/Nodes/Props.v
theories/Reenter/Model.v
theories/Reenter/Spec.v
theories/Reenter/Proof.v
theories/Reenter/Props.v
theories/Platform/Model.v
theories/Platform/Spec.v
theories/Platform/Proof.v
theories/Platform/Props.v
theories/Attach/Model.v
theories/Attach/Spec.v
theories/Attach/Proof.v
theories/Attach/Props.v
theories/Handles/Model.v
theories/Handles/Spec.v
theories/Handles/Proof.v
theories/Handles/Props.v
theories/FunProc/Model.v
theories/FunProc/Spec.v
theories/FunProc/Proof.v
theories/FunProc/Props.v
theories/Scope/Model.v
theories/Scope/Spec.v
theories/Scope/Proof.v
theories/Scope/Props.v
