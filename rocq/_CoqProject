-Q theories Verif
theories/Prelude.v
theories/AllocModel.v
theories/WalkModel.v
theories/DequeModel.v
theories/HashModel.v
theories/RBModel.v
theories/AVLModel.v
theories/CritModel.v
theories/SearchProof.v
theories/AllocProof.v
theories/Spec.v
theories/AllocApi.v
theories/IterProof.v
theories/AllocPoolProof.v
theories/AllocProps.v
theories/DequeApi.v
theories/DequeProof.v
theories/DequeProps.v
theories/MapSpec.v
theories/MapProof.v
theories/MapRel.v
theories/TreeProof.v
theories/RBProof.v
theories/RBInv.v
theories/RBFix.v
theories/MapApi.v
theories/RBApi.v
theories/MapSim.v
theories/RBOps.v
theories/MapFacts.v
theories/RBMain.v
theories/RBProps.v
theories/AVLProof.v
theories/AVLApi.v
theories/AVLOps.v
theories/AVLMain.v
theories/AVLProps.v
theories/HashSpec.v
theories/HashApi.v
theories/HashProof.v
theories/HashMain.v
theories/HashProps.v
theories/CritBits.v
theories/CritProof.v
theories/CritOps.v
theories/CritMut.v
theories/CritRem.v
theories/CritApi.v
theories/CritIter.v
theories/CritMain.v
theories/CritProps.v
theories/TypedProof.v
theories/TypedTree.v
theories/TypedCrit.v
theories/InitProps.v
theories/CmpMain.v
theories/CmpProps.v
theories/BytesModel.v
theories/BytesSpec.v
theories/BytesProof.v
theories/BytesMain.v
theories/BytesProps.v
theories/ValidSpec.v
theories/ValidProof.v
theories/ValidProps.v
theories/NewProof.v
theories/NewProps.v
theories/ProfProof.v
theories/ProfMain.v
theories/ProfProps.v
theories/PrintModel.v
theories/PrintApi.v
theories/PrintProof.v
theories/PrintProps.v
theories/OrderSpec.v
theories/OrderProof.v
theories/OrderProps.v
theories/LooseSpec.v
theories/LooseSim.v
theories/LooseRB.v
theories/LooseAVL.v
theories/LooseProps.v
theories/FuzzModel.v
theories/FuzzProof.v
theories/FuzzMain.v
theories/FuzzTrees.v
theories/FuzzProps.v
theories/SafeProof.v
theories/SafeMain.v
theories/SafeProps.v
theories/NavSpec.v
theories/NavProof.v
theories/NavHash.v
theories/NavAv.v
theories/NavCb.v
theories/NavProps.v
theories/CostModel.v
theories/CostProof.v
theories/CostRB.v
theories/CostRBFact.v
theories/CostAv.v
theories/CostCb.v
theories/CostHt.v
theories/CostProps.v
theories/PanicSpec.v
theories/PanicModel.v
theories/PanicProof.v
theories/PanicProps.v
theories/ShapeSpec.v
theories/ShapeProof.v
theories/ShapeProps.v
theories/SlotSpec.v
theories/SlotGhost.v
theories/SlotProof.v
theories/SlotMap.v
theories/SlotRB.v
theories/SlotAVL.v
theories/SlotHash.v
theories/SlotCrit.v
theories/SlotDeque.v
theories/SlotProps.v
theories/SubsetSpec.v
theories/SubsetProof.v
theories/SubsetHash.v
theories/SubsetProps.v
theories/TestModel.v
theories/TestProof.v
theories/TestTrees.v
theories/TestHash.v
theories/TestProps.v
theories/UnitModel.v
theories/UnitProof.v
theories/UnitProps.v
theories/RelSpec.v
theories/RelProof.v
theories/StructModel.v
theories/RelMain.v
theories/StructProof.v
theories/RelProps.v
theories/HeldModel.v
theories/HeldSpec.v
theories/HeldGen.v
theories/HeldProof.v
theories/HeldMain.v
theories/HeldProps.v
theories/GrowSpec.v
theories/GrowProof.v
theories/GrowMain.v
theories/GrowBytesSpec.v
theories/GrowBytes.v
theories/GrowProps.v
theories/LayoutSpec.v
theories/LayoutProof.v
theories/LayoutMain.v
theories/OffsetProof.v
theories/LayoutProps.v
theories/BenchModel.v
theories/BenchProof.v
theories/BenchProps.v
theories/RekeySpec.v
theories/RekeyModel.v
theories/RekeyProof.v
theories/RekeyAv.v
theories/RekeyHt.v
theories/RekeyCb.v
theories/RekeyProps.v
theories/DegenSpec.v
theories/DegenProof.v
theories/DegenProps.v
theories/RotModel.v
theories/RotProof.v
theories/RotRB.v
theories/RotAv.v
theories/RotAvOps.v
theories/RotProps.v
theories/IterModel.v
theories/IterMeter.v
theories/IterRoom.v
theories/IterRoomCb.v
theories/IterRoomHt.v
theories/IterLoops.v
theories/RoomRB.v
theories/RoomAv.v
theories/RoomProps.v
theories/CapSpec.v
theories/CapProof.v
theories/CapProps.v
theories/TouchSpec.v
theories/TouchProof.v
theories/TouchRB.v
theories/TouchAv.v
theories/TouchHt.v
theories/TouchCb.v
theories/TouchBytes.v
theories/TouchProps.v
theories/DetectSpec.v
theories/DetectProof.v
theories/DetectSim.v
theories/DetectProps.v
theories/AliasSpec.v
theories/AliasUse.v
theories/AliasModel.v
theories/AliasProof.v
theories/AliasProg.v
theories/AliasRun.v
theories/AliasLate.v
theories/AliasTB.v
theories/AliasMain.v
theories/AliasFacts.v
theories/AliasProps.v
theories/ArithProps.v
theories/UnitDetectSpec.v
theories/UnitDetectProof.v
theories/UnitDetectMain.v
theories/UnitDetectProps.v
theories/ChangeSpec.v
theories/ChangeHash.v
theories/ChangeTree.v
theories/ChangeRB.v
theories/ChangeAVL.v
theories/ChangeProps.v
theories/ContractSpec.v
theories/ContractProof.v
theories/ContractProps.v
theories/UninitSpec.v
theories/UninitProof.v
theories/UninitProps.v
theories/SettleSpec.v
theories/SettleProof.v
theories/SettleProps.v
theories/AmortModel.v
theories/AmortRB.v
theories/AmortProof.v
theories/AmortCount.v
theories/AmortProps.v
theories/MtfSpec.v
theories/MtfProof.v
theories/MtfProps.v
theories/UndoSpec.v
theories/UndoProof.v
theories/UndoMaps.v
theories/UndoOrd.v
theories/UndoCrit.v
theories/UndoHash.v
theories/UndoDeque.v
theories/UndoProps.v
theories/AlikeSpec.v
theories/AlikeOrd.v
theories/AlikeCrit.v
theories/AlikeHash.v
theories/AlikeProps.v
theories/LawSpec.v
theories/LawOm.v
theories/LawMaps.v
theories/LawCrit.v
theories/LawHash.v
theories/LawDeque.v
theories/LawProps.v
theories/DrawSpec.v
theories/DrawPure.v
theories/DrawAv.v
theories/DrawMain.v
theories/DrawProps.v
theories/BookSpec.v
theories/BookRot.v
theories/BookOps.v
theories/BookSorted.v
theories/BookMain.v
theories/BookProps.v
theories/HueSpec.v
theories/HueRot.v
theories/HueOps.v
theories/HueMain.v
theories/HueProps.v
theories/StairMain.v
theories/StairProps.v
theories/MethModel.v
theories/MethSpec.v
theories/MethMain.v
theories/MethProps.v
theories/UnivSpec.v
theories/UnivMain.v
theories/AdvMain.v
theories/UnivProps.v
theories/ArrangeSpec.v
theories/ArrangeMain.v
theories/ArrangeProps.v
theories/DealSpec.v
theories/DealMain.v
theories/DealProps.v
theories/SightSpec.v
theories/SightMain.v
theories/SightProps.v
