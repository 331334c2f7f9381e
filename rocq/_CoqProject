-Q theories Verif
theories/Base.v
theories/BaseLemmas.v
theories/HashModel.v
theories/HashProofs.v
theories/SpecHash.v
theories/HashTreeModel.v
theories/HashTreeProofs.v
theories/PropHash.v
theories/PropOrder.v
theories/HashBuilderModel.v
theories/HashBuilderProofs.v
theories/PropHashBuilder.v
theories/RefModel.v
theories/RefProofs.v
theories/SpecRef.v
theories/PropRef.v
theories/DbModel.v
theories/SpecDb.v
theories/DbRefProofs.v
theories/DbFsProofs.v
theories/DbCommitProofs.v
theories/DbOpenProofs.v
theories/DbApiProofs.v
theories/DbSession.v
theories/DbSessionProofs.v
theories/DbMoreProofs.v
theories/DbMultiProofs.v
theories/DbFrameProofs.v
theories/PropDb.v
theories/DbHistoryProofs.v
theories/PropDbMore.v
theories/PropDbApi.v
theories/DbForgeProofs.v
theories/PropForge.v
theories/SpecCanon.v
theories/RefCanonProofs.v
theories/PropCanon.v
theories/SpecFault.v
theories/RefFaultProofs.v
theories/PropFault.v
theories/SpecHexText.v
theories/HashTextProofs.v
theories/PropHexText.v
theories/DbEndProofs.v
theories/PropEnd.v
theories/DbSizeProofs.v
theories/PropSize.v
theories/DbConcurrent.v
theories/DbConcurrentProofs.v
theories/DbScheduleProofs.v
theories/DbSchedule2.v
theories/DbSchedule3.v
theories/DbSchedule4.v
theories/DbSchedule5.v
theories/DbSchedule6.v
theories/PropConcurrent.v
theories/DbShared.v
theories/DbSharedProofs.v
theories/PropShared.v
theories/AstModel.v
theories/SpecAst.v
theories/AstProofs.v
theories/AstTraceProofs.v
theories/AstFuelProofs.v
theories/SpecPeg.v
theories/AstListProofs.v
theories/AstPegProofs.v
theories/AstVisibleProofs.v
theories/AstPanicProofs.v
theories/AstMoreProofs.v
theories/AstEveryProofs.v
theories/PropAst.v
theories/SpecRename.v
theories/AstRenameProofs.v
theories/PropRename.v
theories/SpecRec.v
theories/AstRecProofs.v
theories/AstLateProofs.v
theories/PropRec.v
theories/HashFloat.v
theories/HashFloatProofs.v
theories/PropFloat.v
theories/DbCrowd.v
theories/DbCrowdProofs.v
theories/PropCrowd.v
theories/SpecCond.v
theories/AstCondProofs.v
theories/PropCond.v
theories/CoverModel.v
theories/SpecCover.v
theories/CoverProofs.v
theories/CoverTreeProofs.v
theories/CoverFetchProofs.v
theories/CoverBlameProofs.v
theories/PropCover.v
theories/PropText.v
theories/InterpModel.v
theories/SpecInterp.v
theories/InterpProofs.v
theories/InterpMoreProofs.v
theories/InterpExtraProofs.v
theories/PropInterp.v
theories/SpecBlame.v
theories/InterpBlameProofs.v
theories/PropBlame.v
theories/QueryModel.v
theories/SpecQuery.v
theories/QueryProofs.v
theories/QueryMeanProofs.v
theories/QueryRunProofs.v
theories/PropQuery.v
theories/GrammarModel.v
theories/SpecGrammar.v
theories/GrammarProofs.v
theories/GrammarVisibleProofs.v
theories/PropGrammar.v
theories/SpecAssign.v
theories/GrammarAssignProofs.v
theories/PropAssign.v
theories/SpecOwn.v
theories/AstOwnProofs.v
theories/SpecNames.v
theories/GrammarNamesProofs.v
theories/PropNames.v
theories/SpecText.v
theories/GrammarTextProofs.v
theories/BuilderModel.v
theories/SpecBuilder.v
theories/BuilderProofs.v
theories/PropBuilder.v
theories/PathModel.v
theories/SpecPath.v
theories/PathProofs.v
theories/PathSimProofs.v
theories/PathAliasProofs.v
theories/PropPath.v
theories/SpecPower.v
theories/DbPowerProofs.v
theories/PropPower.v
theories/SpecRecover.v
theories/DbRecoverProofs.v
theories/PropRecover.v
theories/DbThreads.v
theories/SpecThreads.v
theories/DbThreadProofs.v
theories/DbThreadProofs2.v
theories/DbThreadProofs3.v
theories/DbThreadProofs4.v
theories/DbThreadProofs5.v
theories/PropThreads.v
theories/DbDescriptors.v
theories/SpecDescriptors.v
theories/DbDescriptorProofs.v
theories/DbDescriptorProofs2.v
theories/DbDescriptorProofs3.v
theories/DbDescriptorProofs4.v
theories/DbDescriptorProofs5.v
theories/PropDescriptors.v
theories/DbDirModel.v
theories/SpecDir.v
theories/PropDir.v
theories/SpecLeft.v
theories/AstLeftProofs.v
theories/PropLeft.v
theories/SpecCount.v
theories/AstCountProofs.v
theories/AstCostProofs.v
theories/PropCount.v
