-Q theories Verif
theories/Base.v
theories/Util.v
theories/Store.v
theories/Tables.v
theories/Key.v
theories/Diva.v
theories/Bits.v
theories/Shift.v
theories/View.v
theories/Cells.v
theories/Lowbit.v
theories/StoreFind.v
theories/StoreInsert.v
theories/StoreQuery.v
theories/Layout.v
theories/StoreList.v
theories/Spec.v
theories/StoreRep.v
theories/Shrink.v
theories/DelCells.v
theories/StoreDelete.v
theories/TablesProofs.v
theories/KeyBits.v
theories/KeyOrder.v
theories/Tree.v
theories/Filter.v
theories/RangeInt.v
theories/Contents.v
theories/Bulk.v
theories/SpecFilter.v
theories/SpecBlock.v
theories/Hist.v
theories/BulkSame.v
theories/DelHist.v
theories/Claims.v
theories/BlockClaims.v
theories/Words.v
theories/Broadword.v
theories/BroadwordProofs.v
theories/Match.v
theories/Held.v
theories/SplitList.v
theories/SplitKeys.v
theories/Split.v
theories/SplitHist.v
theories/SpecSplit.v
theories/SplitTotal.v
theories/Merge.v
theories/MergeTree.v
theories/DelRun.v
theories/DelClaims.v
theories/Serial.v
theories/SerialProofs.v
theories/SpecSerial.v
theories/SerialClaims.v
theories/HistClaims.v
theories/SpecSpace.v
theories/Space.v
theories/SpaceTree.v
theories/ShrinkTree.v
theories/SpaceClaims.v
theories/StoreMatch.v
theories/MixDel.v
theories/SpecMixed.v
theories/MixHist.v
theories/Explain.v
theories/MixClaims.v
theories/Wormhole.v
theories/WhKey.v
theories/WhBits.v
theories/WhMeta.v
theories/WhLeaf.v
theories/WhIndex.v
theories/SpecIndex.v
theories/WhRun.v
theories/WhLong.v
theories/WhClaims.v
theories/WhHash.v
theories/SpecHash.v
theories/WhHashProofs.v
theories/WhHashClaims.v
theories/WhInt.v
theories/WhIntProofs.v
theories/SpecInt.v
theories/WhIntRun.v
theories/WhIntClaims.v
theories/IntProperties.v
theories/HashProperties.v
theories/WhSlots.v
theories/WhSlotsProofs.v
theories/SpecSlots.v
theories/WhSlotsClaims.v
theories/WhSort.v
theories/WhSortProofs.v
theories/SlotProperties.v
theories/Slab.v
theories/SpecSlab.v
theories/SlabProofs.v
theories/SlabProperties.v
theories/MixProperties.v
theories/IndexProperties.v
theories/Findings.v
theories/Properties.v
