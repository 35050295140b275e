-Q theories Verif
theories/Base.v
theories/NodeModel.v
theories/MarkModel.v
theories/TableModel.v
theories/MemoModel.v
theories/MgrModel.v
theories/CollModel.v
theories/CollModel2.v
theories/Client.v
theories/TestEnv.v
theories/Spec.v
theories/Tree.v
theories/Wp.v
theories/Probe.v
theories/Inv.v
theories/UniqueFind.v
theories/Memo.v
theories/Ops.v
theories/Ite.v
theories/IteExact.v
theories/Nary.v
theories/Trav.v
theories/Trav2.v
theories/Api.v
theories/Handle.v
theories/Rebase.v
theories/Limited.v
theories/Destroy.v
theories/Gc.v
theories/Coll.v
theories/CollAdd.v
theories/CollExp.v
theories/World.v
theories/World2.v
theories/World3.v
theories/CollAnd.v
theories/CollAnd2.v
theories/CollMisc.v
theories/CollRem.v
theories/SpecColl.v
theories/CollBase.v
theories/OrVar.v
theories/PropsColl.v
theories/PropsColl2.v
theories/PropsState.v
theories/PropsColl3.v
theories/PropsColl4.v
theories/PropsColl5.v
theories/PropsColl6.v
theories/PropsColl7.v
theories/PropsColl8.v
theories/PropsOps.v
theories/PropsState2.v
theories/PropsMark.v
theories/PropsKill.v
theories/PropsGc.v
theories/PropsGc2.v
theories/PropsAlloc.v
theories/PageModel.v
theories/PropsPage.v
theories/PropsMin.v
theories/PropsEnv.v
theories/PropsEnv2.v
theories/PropsSize.v
theories/Check.v
theories/Refute.v
theories/Refute2.v
theories/Refute3.v
theories/Refute4.v
theories/PropsCap.v
theories/PropsThrow.v
theories/PropsThrow2.v
theories/PropsGrow.v
theories/PropsGrow2.v
theories/PropsDepth.v
theories/PropsCost.v
theories/PropsCollSize.v
theories/Witness.v
theories/Witness2.v
theories/Witness3.v
theories/Witness4.v
theories/PropsColl9.v
theories/Witness5.v
theories/Witness6.v
theories/Witness7.v
theories/Witness8.v
theories/Witness9.v
theories/PropsCollCost.v
theories/Witness10.v
theories/PropsCost2.v
theories/Witness11.v
theories/PropsCost3.v
theories/Witness12.v
theories/PropsSlot.v
theories/PropsProd.v
theories/PropsMem.v
theories/Witness13.v
theories/PropsXor.v
theories/PropsCost4.v
theories/Witness14.v
theories/Witness15.v
theories/Witness16.v
theories/PropsDepth2.v
theories/Witness17.v
theories/Assumptions.v
