-Q theories Verif
theories/Base.v
theories/BaseLemmas.v
theories/VecModel.v
theories/VecSpec.v
theories/VecHistSpec.v
theories/VecProofs.v
theories/VecOps.v
theories/VecMore.v
theories/VecHist.v
theories/VecExtra.v
theories/Stops.v
theories/VecExact.v
theories/VecAlloc.v
theories/PropVector.v
theories/PropExactVec.v
theories/Order.v
theories/AlgoModel.v
theories/AlgoSpec.v
theories/AlgoProofs.v
theories/PropAlgo.v
theories/Perm.v
theories/ListModel.v
theories/ListSpec.v
theories/ListProofs.v
theories/ListOps.v
theories/ListMut.v
theories/ListRelink.v
theories/ListSort.v
theories/ListMore.v
theories/ListHistSpec.v
theories/ListExact.v
theories/ListHist.v
theories/ListExtra.v
theories/ListIter.v
theories/IterModel.v
theories/IterSpec.v
theories/IterProofs.v
theories/PropIter.v
theories/PropList.v
theories/PropListIter.v
theories/PropExactList.v
theories/SpModel.v
theories/SpSpec.v
theories/SpHistSpec.v
theories/SpProofs.v
theories/SpFree.v
theories/SpOps.v
theories/SpHist.v
theories/PropSp.v
theories/PropExactSp.v
theories/SpThrModel.v
theories/SpThrSpec.v
theories/SpThr.v
theories/PropThreads.v
theories/RbModel.v
theories/RbSpec.v
theories/RbProofs.v
theories/RbFix.v
theories/RbLink.v
theories/RbUnlink.v
theories/RbErase.v
theories/RbWalk.v
theories/RbSearch.v
theories/RbSet.v
theories/RbInsert.v
theories/RbQuery.v
theories/RbHistSpec.v
theories/Errors.v
theories/HonestSet.v
theories/AsksSpec.v
theories/Asks.v
theories/RbAsks.v
theories/RbCopy.v
theories/RbMove.v
theories/RbHist.v
theories/RbExtra.v
theories/PropSet.v
theories/RbMultiModel.v
theories/RbMultiSpec.v
theories/RbMulti.v
theories/PropMulti.v
theories/RbCmpModel.v
theories/RbCmp.v
theories/PropCmp.v
theories/VecCost.v
theories/PropCost.v
theories/VecRowSpec.v
theories/VecRow.v
theories/PropRow.v
theories/RbMultiHistSpec.v
theories/RbMultiHist.v
theories/PropMultiHist.v
theories/RbVerModel.v
theories/RbVerSpec.v
theories/RbVer.v
theories/PropVer.v
theories/RbAnySpec.v
theories/RbAny.v
theories/PropAny.v
theories/PropAnyMore.v
theories/HonestVec.v
theories/HonestAlgo.v
theories/HonestList.v
theories/HonestMulti.v
theories/HonestSp.v
theories/PropErrors.v
theories/PropAsks.v
theories/PropAsksSet.v
theories/PropAsksRest.v
theories/NestModel.v
theories/NestSpec.v
theories/NestProofs.v
theories/NestOps.v
theories/NestHistSpec.v
theories/NestHist.v
theories/PropNest.v
theories/CountSpec.v
theories/Count.v
theories/ListCount.v
theories/RbCount.v
theories/PropCountList.v
theories/PropCountSet.v
theories/PropRange.v
theories/RbIter.v
theories/PropRangeIter.v
theories/RbUpto.v
theories/RoundsSpec.v
theories/PropRounds.v
theories/ConcModel.v
theories/ConcSpec.v
theories/Conc.v
theories/ConcVec.v
theories/ConcList.v
theories/ConcSet.v
theories/ConcMulti.v
theories/ConcSp.v
theories/ConcMix.v
theories/PropConc.v
theories/PropConcVec.v
theories/PropConcList.v
theories/PropConcSet.v
theories/PropConcSp.v
theories/PropLocked.v
theories/PropMixed.v
theories/Handover.v
theories/PropHandover.v
theories/PropHandoverList.v
theories/PropHandoverSet.v
theories/MeterSpec.v
theories/Meter.v
theories/PropMeter.v
theories/VecDefault.v
theories/PropDefault.v
theories/PropDefaultMore.v
theories/PropDefaultSet.v
theories/PropStale.v
theories/PropStaleVec.v
theories/PropStaleList.v
theories/PropStaleSet.v
theories/ListDet.v
theories/ListDetHist.v
theories/SameSpec.v
theories/RbDet.v
theories/RbDetHist.v
theories/PropSame.v
theories/PropSameSet.v
theories/RbDetMulti.v
theories/PropSameMulti.v
theories/PropHandoverMulti.v
