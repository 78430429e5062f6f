-Q theories Verif
theories/Base.v
theories/Sums.v
theories/Tensor.v
theories/TensorFacts.v
theories/Util.v
theories/Perm.v
theories/Plumb.v
theories/Accept.v
theories/Spec.v
theories/Conv1.v
theories/PadFacts.v
theories/CoreFacts.v
theories/Analysis.v
theories/AnalysisInv.v
theories/PRKernel.v
theories/Synthesis.v
theories/Filters.v
theories/Wave1.v
theories/Wave1Inv.v
theories/Rec1.v
theories/Rec1Inv.v
theories/Lin.v
theories/Examples.v
theories/Props1.v
theories/Conv2.v
theories/Conv3.v
theories/Spec2.v
theories/WaveN.v
theories/RecN.v
theories/Props2.v
theories/Tags.v
theories/Sep.v
theories/SpecSep.v
theories/SepFacts.v
theories/SepRec.v
theories/SepRec2.v
theories/SepRec3.v
theories/PropsSep.v
theories/Swt.v
theories/SpecSwt.v
theories/SwtFacts.v
theories/SwtDec.v
theories/SwtRec.v
theories/PropsSwt.v
theories/SwtExact.v
theories/Packets.v
theories/SpecPk.v
theories/PacketFacts.v
theories/Orders.v
theories/PacketConv.v
theories/PropsPk.v
theories/PropsPkRead.v
theories/Unified.v
theories/PropsLevels.v
theories/PropsPkDec.v
theories/RecNInv.v
theories/UnifiedRec.v
theories/PropsNd.v
theories/PropsRej.v
theories/AxesPerm.v
theories/PropsAxes.v
theories/PropsConst.v
theories/Local.v
theories/PropsLocal.v
theories/PropsMoments.v
theories/Sparse.v
theories/SparseFacts.v
theories/SparseConv.v
theories/SparseConv2.v
theories/Conv2Stored.v
theories/SpecMat.v
theories/SparseMM.v
theories/LinAlg.v
theories/PropsSparse.v
theories/SparseDense.v
theories/Mat1.v
theories/GramSchmidt.v
theories/MatOrth.v
theories/Boundary.v
theories/PropsOrth.v
theories/MatPre.v
theories/Mat1Facts.v
theories/Mat1Call.v
theories/PropsMat1.v
theories/Mat1Op.v
theories/MatN.v
theories/Boundary2.v
theories/OrthCong.v
theories/SpecMatN.v
theories/MatNFacts.v
theories/MatNLoop.v
theories/MatNSep.v
theories/MatNNon.v
theories/MatNCall.v
theories/PropsMatN.v
theories/PropsMatN2.v
theories/PropsMatNon.v
theories/LocalM.v
theories/EnergyN.v
theories/Surj.v
theories/PropsSurj.v
theories/LocalBW.v
theories/PropsLocalM.v
theories/MatNOp.v
theories/PacketsM.v
theories/PkInv.v
theories/SpecPkM.v
theories/PropsTagMat.v
theories/PropsPkM.v
theories/PropsPkM2.v
theories/RealLA.v
theories/ExReal.v
theories/ExMat1.v
theories/ExMatN.v
theories/ExSurj.v
theories/ExPkM.v
theories/ExLocalM.v
theories/Learn.v
theories/LearnFacts.v
theories/Polyphase.v
theories/PropsLearn.v
theories/PropsUtil.v
theories/Cwt.v
theories/SpecCwt.v
theories/CwtFacts.v
theories/PropsCwt.v
theories/ExCwt.v
theories/CwtLearn.v
theories/PropsCwtL.v
theories/PropsLin.v
theories/PropsBatch.v
theories/PropsBatch2.v
theories/PropsNest.v
theories/PropsEnergyZ.v
theories/PropsPkE.v
theories/PropsDict.v
theories/PropsSwtE.v
theories/PropsAxisWise.v
theories/PropsAxisRec.v
theories/ExLin.v
theories/PropsLocalRec.v
theories/PropsCwtLocal.v
theories/ExCwtLocal.v
theories/ExMore.v
theories/PropsAdjoint.v
theories/ExAdjoint.v
theories/PropsFlip.v
theories/PropsRoll.v
theories/ExFlip.v
theories/PropsBest.v
theories/ExBest.v
theories/PropsIter.v
theories/PropsIterPk.v
theories/ExIter.v
theories/PropsSwtIter.v
theories/ExSwtIter.v
theories/PropsTap.v
theories/PropsPkFlag.v
