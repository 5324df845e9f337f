-Q theories Verif
theories/Tensor.v
theories/ChainModel.v
theories/ChainProofs.v
theories/ReshapeProofs.v
theories/LowerProofs.v
theories/EdgeProofs.v
theories/Properties_Chains.v
theories/PruneModel.v
theories/MergeProofs.v
theories/GroupProofs.v
theories/SetOrderProofs.v
theories/SetTermProofs.v
theories/SmallestProofs.v
theories/DivideProofs.v
theories/FloatProofs.v
theories/OrderProofs.v
theories/Properties_Prune.v
theories/ConvSpec.v
theories/FuseModel.v
theories/FuseProofs.v
theories/PadProofs.v
theories/FuseMiscProofs.v
theories/Properties_Fuse.v
theories/CatSpec.v
theories/RewriteModel.v
theories/CatProofs.v
theories/GroupConvProofs.v
theories/Properties_Rewrite.v
theories/LayoutSpec.v
theories/PassModel.v
theories/PassProofs.v
theories/PassAxesProofs.v
theories/NoopProofs.v
theories/Properties_Pass.v
theories/GraphModel.v
theories/GraphProofs.v
theories/GraphTableProofs.v
theories/GraphMiscProofs.v
theories/GraphFoldProofs.v
theories/VersionModel.v
theories/VersionProofs.v
theories/Properties_Graph.v
theories/QuantSpec.v
theories/QuantModel.v
theories/QuantProofs.v
theories/QuantMiscProofs.v
theories/Properties_Quant.v
theories/LlmModel.v
theories/LlmProofs.v
theories/Properties_Llm.v
theories/EqModel.v
theories/EqProofs.v
theories/EqMiscProofs.v
theories/Properties_Eq.v
theories/UtilModel.v
theories/SliceModel.v
theories/UtilProofs.v
theories/SliceProofs.v
theories/Properties_Util.v
theories/QModModel.v
theories/QModProofs.v
theories/Properties_QMod.v
theories/ShrinkModel.v
theories/ShrinkProofs.v
theories/ShrinkMiscProofs.v
theories/Properties_Shrink.v
theories/HistModel.v
theories/HistProofs.v
theories/Properties_Hist.v
theories/AtenSpec.v
theories/AtenConvModel.v
theories/AtenConvProofs.v
theories/Properties_Aten.v
theories/PoolSpec.v
theories/AtenPoolModel.v
theories/AtenPoolProofs.v
theories/Properties_Pool.v
theories/MoveSpec.v
theories/AtenMoveModel.v
theories/AtenMoveProofs.v
theories/Properties_Move.v
theories/NormSpec.v
theories/AtenNormModel.v
theories/AtenNormProofs.v
theories/Properties_Norm.v
theories/IndexSpec.v
theories/AtenIndexModel.v
theories/AtenIndexProofs.v
theories/Properties_Index.v
theories/ResizeSpec.v
theories/AtenResizeModel.v
theories/AtenResizeProofs.v
theories/Properties_Resize.v
theories/EltSpec.v
theories/AtenEltModel.v
theories/AtenEltProofs.v
theories/Properties_Elt.v
theories/LinSpec.v
theories/AtenLinModel.v
theories/AtenLinProofs.v
theories/Properties_Lin.v
theories/RnnSpec.v
theories/AtenRnnModel.v
theories/AtenRnnProofs.v
theories/Properties_Rnn.v
theories/PassReshapeModel.v
theories/PassReshapeProofs.v
theories/PassReshapeOpProofs.v
theories/PassReshapeOp2Proofs.v
theories/PassReshapeOp3Proofs.v
theories/PassReshapeOp4Proofs.v
theories/PassReshapeOp5Proofs.v
theories/PassReshapeRefProofs.v
theories/PassReshapeSelProofs.v
theories/Properties_PassReshape.v
theories/QGruModel.v
theories/QGruProofs.v
theories/Properties_QGru.v
theories/QatSpec.v
theories/QatModel.v
theories/QatProofs.v
theories/Properties_Qat.v
theories/PruneIdxModel.v
theories/PruneIdxSpec.v
theories/PruneIdxProofs.v
theories/PruneIdxLabProofs.v
theories/PruneIdxWitness.v
theories/Properties_PruneIdx.v
theories/QLayerSpec.v
theories/QLayerModel.v
theories/QLayerProofs.v
theories/Properties_QLayer.v
theories/PassQuantSpec.v
theories/PassQuantModel.v
theories/PassQuantProofs.v
theories/Properties_PassQuant.v
theories/TraceSpec.v
theories/TraceModel.v
theories/TraceProofs.v
theories/TraceAfterProofs.v
theories/TraceRemoveProofs.v
theories/TraceExample.v
theories/Properties_Trace.v
theories/TraceInsertModel.v
theories/TraceTailProofs.v
theories/TraceBetweenProofs.v
theories/TraceBeforeProofs.v
theories/TraceInsertExample.v
theories/TraceInsertRefuted.v
theories/Properties_TraceInsert.v
theories/TraceSubSpec.v
theories/TraceSubModel.v
theories/TraceSubProofs.v
theories/TraceExtractProofs.v
theories/TraceSubExample.v
theories/Properties_TraceSub.v
theories/PassWrapModel.v
theories/PassWrapSpec.v
theories/PassWrapProofs.v
theories/Properties_PassWrap.v
theories/ElimModel.v
theories/ElimSpec.v
theories/ElimBase.v
theories/ElimStep.v
theories/ElimProofs.v
theories/ElimPass.v
theories/ElimLayoutModel.v
theories/ElimLayoutSpec.v
theories/ElimLayout.v
theories/ElimCheck.v
theories/ElimExamples.v
theories/Properties_Elim.v
theories/QRewriteSpec.v
theories/QRewriteModel.v
theories/QRewriteProofs.v
theories/QRewriteShapeProofs.v
theories/Properties_QRewrite.v
theories/TraceStubSpec.v
theories/TraceStubModel.v
theories/TraceExistingProofs.v
theories/TraceStubProofs.v
theories/TraceQuantStubProofs.v
theories/TraceDequantStubProofs.v
theories/TracePairProofs.v
theories/TraceStubExample.v
theories/TraceStubRefuted.v
theories/Properties_TraceStub.v
theories/PruneTrackModel.v
theories/PruneTrackSpec.v
theories/PruneTrackPathSpec.v
theories/PruneTrackDetectProofs.v
theories/PruneTrackProofs.v
theories/PruneSplitProofs.v
theories/PruneTrackExample.v
theories/Properties_PruneTrack.v
theories/PruneBnModel.v
theories/PruneBnSpec.v
theories/PruneBnProofs.v
theories/PruneBnExample.v
theories/Properties_PruneBn.v
theories/CatObsModel.v
theories/CatObsSpec.v
theories/CatObsProofs.v
theories/CatObsExample.v
theories/Properties_CatObs.v
theories/NetAdaptModel.v
theories/NetAdaptSpec.v
theories/NetAdaptProofs.v
theories/NetAdaptExample.v
theories/Properties_NetAdapt.v
theories/RequantModel.v
theories/RequantSpec.v
theories/RequantProofs.v
theories/RequantExample.v
theories/Properties_Requant.v
theories/QStatsModel.v
theories/QStatsSpec.v
theories/QStatsProofs.v
theories/Properties_QStats.v
theories/AdmmModel.v
theories/AdmmSpec.v
theories/AdmmProofs.v
theories/Properties_Admm.v
theories/OutTransModel.v
theories/OutTransSpec.v
theories/OutTransProofs.v
theories/Properties_OutTrans.v
theories/BranchModel.v
theories/BranchSpec.v
theories/BranchProofs.v
theories/Properties_Branch.v
theories/FuseActModel.v
theories/FuseActSpec.v
theories/FuseActProofs.v
theories/Properties_FuseAct.v
theories/InitOpsModel.v
theories/InitOpsSpec.v
theories/InitOpsProofs.v
theories/Properties_InitOps.v
theories/HalfModel.v
theories/HalfSpec.v
theories/HalfProofs.v
theories/Properties_Half.v
theories/ErrAnaModel.v
theories/ErrAnaSpec.v
theories/ErrAnaProofs.v
theories/Properties_ErrAna.v
theories/InTransModel.v
theories/InTransSpec.v
theories/InTransProofs.v
theories/Properties_InTrans.v
theories/CfgModel.v
theories/CfgSpec.v
theories/CfgProofs.v
theories/Properties_Cfg.v
theories/UnpackModel.v
theories/UnpackSpec.v
theories/UnpackProofs.v
theories/Properties_Unpack.v
theories/TransformModel.v
theories/TransformSpec.v
theories/TransformProofs.v
theories/Properties_Transform.v
theories/NamesModel.v
theories/NamesSpec.v
theories/NamesProofs.v
theories/Properties_Names.v
theories/QuantIOModel.v
theories/QuantIOSpec.v
theories/QuantIOProofs.v
theories/Properties_QuantIO.v
theories/ClsModel.v
theories/ClsSpec.v
theories/ClsProofs.v
theories/Properties_Cls.v
theories/CleModel.v
theories/CleSpec.v
theories/CleProofs.v
theories/Properties_Cle.v
theories/HbaModel.v
theories/HbaSpec.v
theories/HbaProofs.v
theories/Properties_Hba.v
