-Q theories Verif
theories/AtProof.v
theories/AvxProof.v
theories/Base.v
theories/BitUtilModel.v
theories/BitUtilProof.v
theories/BitUtilProof2.v
theories/BitVectorModel.v
theories/BitVectorProof.v
theories/BitVectorProof2.v
theories/BomExact.v
theories/BomProof.v
theories/BuildCost.v
theories/BuildCostModel.v
theories/CDRWAll.v
theories/CDRWDebug.v
theories/CDRWDebugModel.v
theories/CDRWLimits.v
theories/CDRWModel.v
theories/CDRWProof.v
theories/CDRWVecAll.v
theories/CDRWVecDebug.v
theories/CHTDebug.v
theories/CHTDebug2.v
theories/CHTDebugModel.v
theories/CHTDel.v
theories/CHTDelLimits.v
theories/CHTErase.v
theories/CHTFull.v
theories/CHTInsert.v
theories/CHTLimits.v
theories/CHTLoad.v
theories/CHTMain.v
theories/CHTModel.v
theories/CHTProof.v
theories/CHTResize.v
theories/CHTRing.v
theories/CHTRun.v
theories/CHTShift.v
theories/CHTShow.v
theories/CHTShowModel.v
theories/CHTShowSpec.v
theories/CHTWide.v
theories/CHTWord.v
theories/CalcExact.v
theories/CalcModel.v
theories/CalcProof.v
theories/CalcProof2.v
theories/ClzExact.v
theories/CostBase.v
theories/DacExact.v
theories/DacModel.v
theories/DacProof.v
theories/DacShow.v
theories/DacShowModel.v
theories/DacShowSpec.v
theories/DacSpace.v
theories/DacSpaceModel.v
theories/DelayModel.v
theories/DelayProof.v
theories/DelaySharp.v
theories/FitAt.v
theories/FitDebug.v
theories/FitDebugModel.v
theories/FitDebugSpec.v
theories/FitMask.v
theories/FitMaskModel.v
theories/FitVectorModel.v
theories/FitVectorProof.v
theories/FitVectorProof2.v
theories/FoArray.v
theories/FoCost.v
theories/FoCostModel.v
theories/FoDebug.v
theories/FoDebugModel.v
theories/FoExact.v
theories/FoFree.v
theories/FoModel.v
theories/FoOracle.v
theories/FoProof.v
theories/FoRing.v
theories/FoSearch.v
theories/FoSize.v
theories/FoWidth.v
theories/FoWidth2.v
theories/FoWidthModel.v
theories/FoWitness.v
theories/HashExact.v
theories/HashModel.v
theories/HashProof.v
theories/HeapCost.v
theories/HeapCostModel.v
theories/HeapModel.v
theories/HeapProof.v
theories/HeapProof2.v
theories/HwModel.v
theories/HwProof.v
theories/InitArrayExact.v
theories/InitArrayModel.v
theories/InitArrayProof.v
theories/InitCost.v
theories/InitCostModel.v
theories/InitShow.v
theories/InitShowModel.v
theories/InitShowSpec.v
theories/IterModel.v
theories/IterProof.v
theories/IterSpec.v
theories/KeyView.v
theories/KeyViewModel.v
theories/KmpProof.v
theories/LcpExact.v
theories/LcpProof.v
theories/LcpReport.v
theories/LcpReportModel.v
theories/LcpReportSpec.v
theories/LimitModel.v
theories/LimitProof.v
theories/LogModel.v
theories/LogProof.v
theories/MatchProof.v
theories/MatchSpec.v
theories/Moved.v
theories/MovedModel.v
theories/MsExact.v
theories/MultiBitModel.v
theories/MultiBitProof.v
theories/MultiBitProof2.v
theories/MultiBitSpec.v
theories/MultipleModel.v
theories/MultipleModel2.v
theories/MultipleModel3.v
theories/MultipleProof.v
theories/MultipleProof2.v
theories/MultipleProof3.v
theories/PadModel.v
theories/PadProof.v
theories/PatternCost.v
theories/PatternCostModel.v
theories/PatternModel.v
theories/PatternProof.v
theories/Prop_BitUtil.v
theories/Prop_BitVector.v
theories/Prop_BomExact.v
theories/Prop_BuildCost.v
theories/Prop_CDRW.v
theories/Prop_CDRWAll.v
theories/Prop_CDRWDebug.v
theories/Prop_CDRWExact.v
theories/Prop_CDRWVec.v
theories/Prop_CHT.v
theories/Prop_CHTDebug.v
theories/Prop_CHTDel.v
theories/Prop_CHTDel2.v
theories/Prop_CHTLoad.v
theories/Prop_CHTShow.v
theories/Prop_CHTWide.v
theories/Prop_Calc.v
theories/Prop_CalcExact.v
theories/Prop_ClzExact.v
theories/Prop_Dac.v
theories/Prop_DacExact.v
theories/Prop_DacShow.v
theories/Prop_DacSpace.v
theories/Prop_Delay.v
theories/Prop_FactorOracle.v
theories/Prop_FitAt.v
theories/Prop_FitDebug.v
theories/Prop_FitMask.v
theories/Prop_FitVector.v
theories/Prop_FoCost.v
theories/Prop_FoDebug.v
theories/Prop_FoExact.v
theories/Prop_FoSearch.v
theories/Prop_FoSize.v
theories/Prop_FoWidth.v
theories/Prop_Hash.v
theories/Prop_HashExact.v
theories/Prop_Heap.v
theories/Prop_HeapCost.v
theories/Prop_Hw.v
theories/Prop_InitArray.v
theories/Prop_InitArrayExact.v
theories/Prop_InitCost.v
theories/Prop_InitShow.v
theories/Prop_Iter.v
theories/Prop_KeyView.v
theories/Prop_LcpExact.v
theories/Prop_LcpReport.v
theories/Prop_Limits.v
theories/Prop_Log.v
theories/Prop_Match.v
theories/Prop_Moved.v
theories/Prop_MsExact.v
theories/Prop_MultiBit.v
theories/Prop_MultiBit2.v
theories/Prop_Multiple.v
theories/Prop_MultipleAgain.v
theories/Prop_Pad.v
theories/Prop_Pattern.v
theories/Prop_PatternCost.v
theories/Prop_QueryCost.v
theories/Prop_Ref.v
theories/Prop_Rehash.v
theories/Prop_Sais.v
theories/Prop_SaisCost.v
theories/Prop_SaisExact.v
theories/Prop_SaisZero.v
theories/Prop_Samc.v
theories/Prop_SamcDebug.v
theories/Prop_SamcDictDebug.v
theories/Prop_SamcSet.v
theories/Prop_SamcShift.v
theories/Prop_SamcWidth.v
theories/Prop_SearchCost.v
theories/Prop_SelExact.v
theories/Prop_Serial.v
theories/Prop_ShortStream.v
theories/Prop_Signed.v
theories/Prop_SmallDebug.v
theories/Prop_Space.v
theories/Prop_Split.v
theories/Prop_Stream.v
theories/Prop_StringStream.v
theories/Prop_Succinct.v
theories/Prop_Succinct2.v
theories/Prop_Suffix.v
theories/Prop_SuffixInt.v
theories/Prop_Trie.v
theories/Prop_TrieAct.v
theories/Prop_TrieExact.v
theories/Prop_TrieWidth.v
theories/Prop_Turbo.v
theories/Prop_TurboCost.v
theories/Prop_Wavelet.v
theories/Prop_Wavelet2.v
theories/Prop_WaveletDebug.v
theories/Prop_WaveletRead.v
theories/Prop_Window.v
theories/QueryCost.v
theories/QueryCostModel.v
theories/RefModel.v
theories/RefProof.v
theories/Rehash.v
theories/RehashModel.v
theories/SaisCost.v
theories/SaisCostModel.v
theories/SaisCtor.v
theories/SaisDec.v
theories/SaisExact.v
theories/SaisInduce.v
theories/SaisKey.v
theories/SaisName.v
theories/SaisOrder.v
theories/SaisPublic.v
theories/SaisPut.v
theories/SaisRows.v
theories/SaisSort.v
theories/SaisTotal.v
theories/SaisZero.v
theories/SaisZero2.v
theories/SamcAccept.v
theories/SamcDebug.v
theories/SamcDebug2.v
theories/SamcDebug3.v
theories/SamcDebugModel.v
theories/SamcDictDebug.v
theories/SamcDictProof.v
theories/SamcLevel.v
theories/SamcModel.v
theories/SamcPack.v
theories/SamcProof.v
theories/SamcSet.v
theories/SamcSet2.v
theories/SamcSet3.v
theories/SamcSet4.v
theories/SamcShift.v
theories/SamcShiftModel.v
theories/SamcTree.v
theories/SamcWidthModel.v
theories/SamcWidthProof.v
theories/SamcWidthProof2.v
theories/SearchCost.v
theories/SearchCostModel.v
theories/SelDict.v
theories/SelExact.v
theories/SerialReach.v
theories/ShortStream.v
theories/ShortStreamModel.v
theories/SignedModel.v
theories/SignedProof.v
theories/SmallDebug.v
theories/SmallDebugModel.v
theories/SpaceModel.v
theories/SpaceProof.v
theories/Spec.v
theories/Spec10.v
theories/Spec11.v
theories/Spec12.v
theories/Spec13.v
theories/Spec14.v
theories/Spec15.v
theories/Spec16.v
theories/Spec17.v
theories/Spec18.v
theories/Spec19.v
theories/Spec2.v
theories/Spec20.v
theories/Spec21.v
theories/Spec22.v
theories/Spec23.v
theories/Spec24.v
theories/Spec25.v
theories/Spec26.v
theories/Spec27.v
theories/Spec28.v
theories/Spec29.v
theories/Spec3.v
theories/Spec30.v
theories/Spec31.v
theories/Spec32.v
theories/Spec33.v
theories/Spec34.v
theories/Spec35.v
theories/Spec4.v
theories/Spec5.v
theories/Spec6.v
theories/Spec7.v
theories/Spec8.v
theories/Spec9.v
theories/SplitProof.v
theories/SplitSpec.v
theories/StreamModel.v
theories/StreamProof.v
theories/StringStreamModel.v
theories/StringStreamProof.v
theories/SuccinctExact.v
theories/SuccinctModel.v
theories/SuccinctProof.v
theories/SuccinctProof2.v
theories/SuccinctProof3.v
theories/SuffixInt.v
theories/SuffixInt2.v
theories/SuffixIntModel.v
theories/SuffixModel.v
theories/SuffixProof.v
theories/SundayProof.v
theories/TrieAct.v
theories/TrieActModel.v
theories/TrieExact.v
theories/TrieModel.v
theories/TrieProof.v
theories/TrieWalk.v
theories/TrieWidth.v
theories/TrieWidth2.v
theories/TrieWidthModel.v
theories/TurboCost.v
theories/TurboCostModel.v
theories/TurboProof.v
theories/TurboSpec.v
theories/WaveletDebug.v
theories/WaveletDebugModel.v
theories/WaveletExact.v
theories/WaveletModel.v
theories/WaveletProof.v
theories/WaveletRead.v
theories/WideSpec.v
theories/Window.v
theories/WindowModel.v
theories/XorMapProof.v
