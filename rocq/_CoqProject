-Q theories Verif

theories/Common/Res.v
theories/Common/Word.v
theories/Common/WordFacts.v
theories/Swiss/Group.v
theories/Swiss/GroupSpec.v
theories/Swiss/GroupProof.v
theories/Swiss/GroupPortableProof.v
theories/Swiss/Model.v
theories/Swiss/Probe.v
theories/Swiss/Inv.v
theories/Swiss/ProbeProof.v
theories/Swiss/TableInv.v
theories/Swiss/PropsGroup.v
theories/Swiss/Resize.v
theories/Swiss/Ops.v
theories/Swiss/MapSpec.v
theories/Swiss/History.v
theories/Swiss/Reserve.v
theories/Swiss/PropsTable.v
theories/Swiss/Multi.v
theories/Swiss/MultiSpec.v
theories/Swiss/MultiProof.v
theories/Swiss/MultiHistory.v
theories/Swiss/Dump.v
theories/Swiss/DumpProof.v
theories/Swiss/PropsMulti.v
theories/BitVec/Model.v
theories/BitVec/Bits.v
theories/BitVec/VisitProof.v
theories/BitVec/Loops.v
theories/BitVec/Spec.v
theories/BitVec/SpecFacts.v
theories/BitVec/OpsProof.v
theories/BitVec/Popcount.v
theories/BitVec/Observe.v
theories/BitVec/HexProof.v
theories/BitVec/History.v
theories/BitVec/PropsBitVec.v
theories/Vec/Model.v
theories/Vec/Wp.v
theories/Vec/Ranges.v
theories/Vec/Segs.v
theories/Vec/Ops1.v
theories/Vec/Ops2.v
theories/Vec/Ops3.v
theories/Vec/Ops4.v
theories/Vec/Ops5.v
theories/Vec/Machine.v
theories/Vec/Refine.v
theories/Vec/PropsVec.v
theories/Vec/WitnessVec.v
theories/Bits/Model.v
theories/Bits/Facts.v
theories/Bits/PropsBits.v
theories/Misc/Search.v
theories/Misc/Soa.v
theories/Misc/PropsSoa.v
theories/Misc/Intrusive.v
theories/Misc/Refcount.v
theories/Misc/VecUtils.v
theories/Misc/Scope.v
theories/Par/Seq.v
theories/Par/SeqSpec.v
theories/Par/SeqProof.v
theories/Par/PropsSeq.v
theories/Par/Locks.v
theories/Par/PropsLocks.v
theories/Par/Conc.v
theories/Par/ConcProof.v
theories/Par/ConcSafe.v
theories/Par/ConcMap.v
theories/Par/ConcMapProof.v
theories/Par/PropsConc.v
theories/Par/ConcWhole.v
theories/Par/PropsConcWhole.v
theories/Par/Deadlock.v
theories/Par/PropsDeadlock.v
theories/Cache/Lru.v
theories/Cache/LruSpec.v
theories/Cache/LruProof.v
theories/Cache/LruCache.v
theories/Cache/LruFacts.v
theories/Cache/PropsLru.v
theories/Cache/MtLru.v
theories/Cache/Memo.v
theories/Cache/PropsMemo.v
theories/BTree/Tree.v
theories/BTree/Search.v
theories/BTree/Ops.v
theories/BTree/TreeFacts.v
theories/BTree/Balance.v
theories/BTree/Iter.v
theories/BTree/Spec.v
theories/BTree/SearchFacts.v
theories/BTree/OpsFacts.v
theories/BTree/SpecFacts.v
theories/BTree/Refine.v
theories/BTree/Refine2.v
theories/BTree/Api.v
theories/BTree/ApiSpec.v
theories/BTree/ApiFacts.v
theories/BTree/MapFacts.v
theories/BTree/PropsBTree.v
theories/BTree/Slots.v
theories/BTree/SlotsFacts.v
theories/BTree/SlotsOps.v
theories/BTree/SlotsOps2.v
theories/BTree/SlotsRoot.v
theories/BTree/PropsSlots.v
theories/BTree/Throw.v
theories/BTree/ThrowFacts.v
theories/BTree/PropsThrow.v
theories/Mem/Layout.v
theories/Mem/LayoutFacts.v
theories/Mem/PropsLayout.v
theories/Swiss/Life.v
theories/Swiss/LifeProof.v
theories/Swiss/PropsLife.v
theories/Swiss/LifeThrow.v
theories/Swiss/PropsLifeThrow.v
theories/Swiss/Failing.v
theories/Swiss/FailingProof.v
theories/Swiss/PropsFailing.v
theories/Cache/MemoThrow.v
theories/Cache/PropsMemoThrow.v
theories/Cache/Recurse.v
theories/Cache/PropsRecurse.v
theories/Swiss/Node.v
theories/Swiss/NodeSpec.v
theories/Swiss/NodeProof.v
theories/Swiss/NodeFacts.v
theories/Swiss/NodeRun.v
theories/Swiss/PropsNode.v
theories/Swiss/Amortized.v
theories/Swiss/AmortizedProof.v
theories/Swiss/PropsAmortized.v
theories/Swiss/NullCtrl.v
theories/Swiss/NullProof.v
theories/Swiss/PropsNull.v
theories/Swiss/Range.v
theories/Swiss/RangeProof.v
theories/Swiss/PropsRange.v
theories/BTree/Hetero.v
theories/BTree/HeteroFacts.v
theories/BTree/PropsHetero.v
theories/Swiss/HFind.v
theories/Swiss/PropsHFind.v
theories/Swiss/PropsOldDump.v
theories/BTree/Compare.v
theories/BTree/CompareFacts.v
theories/BTree/PropsCompare.v
theories/BTree/AnyFacts.v
theories/BTree/PropsAny.v
theories/Misc/SoaThrow.v
theories/Misc/PropsSoaThrow.v
theories/Swiss/AnyHashSpec.v
theories/Swiss/AnyHash.v
theories/Swiss/AnyHashProof.v
theories/Swiss/AnyHashAgree.v
theories/Swiss/PropsAnyHash.v
theories/Swiss/PropsNan.v
theories/Vec/InputInsert.v
theories/Vec/PropsInput.v
theories/Swiss/AnyMultiSpec.v
theories/Swiss/AnyMulti.v
theories/Swiss/AnyMultiProof.v
theories/Swiss/PropsAnyMulti.v
theories/Par/AnyParSpec.v
theories/Par/AnyPar.v
theories/Par/AnyParProof.v
theories/Par/PropsAnyPar.v
theories/BTree/AnyMulti.v
theories/BTree/PropsAnyMulti.v
theories/Vec/Handover.v
theories/Vec/Quiet.v
theories/Vec/PropsHandover.v
theories/Par/Nested.v
theories/Par/PropsNested.v
theories/Misc/SearchAny.v
theories/Swiss/PropsSelf.v
theories/BTree/PropsSelf.v
theories/Par/PropsHSeq.v
theories/Par/PropsEqualRange.v
theories/Par/PropsPolicy.v
theories/Par/PropsEraseRange.v
theories/Par/PropsSubmap.v
theories/Par/PropsAt.v
theories/Par/PropsRange.v
