-Q theories Verif
theories/Base.v
theories/BaseProofs.v
theories/CmpModel.v
theories/CmpSpec.v
theories/CmpProofs.v
theories/CmpProps.v
theories/EndianModel.v
theories/EndianProofs.v
theories/EndianProps.v
theories/VarintModel.v
theories/VarintSpec.v
theories/VarintProofs.v
theories/VarintProps.v
theories/Base58Model.v
theories/Base58Spec.v
theories/Base58Proofs.v
theories/Base58Props.v
theories/KeyModel.v
theories/KeySpec.v
theories/KeyProofs.v
theories/KeyHistory.v
theories/KeyProps.v
theories/AVLModel.v
theories/MapSpec.v
theories/AVLSpec.v
theories/AVLProofs.v
theories/MapProofs.v
theories/AVLHistory.v
theories/AVLIter.v
theories/AVLProps.v
theories/HashModel.v
theories/HashSpec.v
theories/HashProofs.v
theories/HashProps.v
theories/MurmurModel.v
theories/MurmurSpec.v
theories/MurmurProofs.v
theories/HashableModel.v
theories/HashableProps.v
theories/ValueModel.v
theories/ValueSpec.v
theories/ValueProofs.v
theories/ValueAccess.v
theories/ValueCopy.v
theories/ValueArrays.v
theories/ValueProps.v
theories/RecordProofs.v
theories/RecordProps.v
theories/SchemeModel.v
theories/SchemeSpec.v
theories/SchemeProofs.v
theories/SchemeProps.v
theories/ConsensusModel.v
theories/ConsensusSpec.v
theories/ConsensusProofs.v
theories/ConsensusProps.v
theories/RandModel.v
theories/RandProps.v
theories/MPHModel.v
theories/MPHProofs.v
theories/MPHSpec.v
theories/MPHWire.v
theories/MPHCodec.v
theories/MPHProps.v
theories/TrieModel.v
theories/TrieProps.v
theories/CrcModel.v
theories/CrcProofs.v
theories/AesModel.v
theories/KeyStoreModel.v
theories/KeyStoreSpec.v
theories/KeyStoreProofs.v
theories/KeyStoreProps.v
theories/NumberTheory.v
theories/EcdsaModel.v
theories/EcdsaProps.v
theories/MPHParse.v
theories/SSTableModel.v
theories/SSTableProofs.v
theories/SSTableProps.v
theories/ObjModel.v
theories/ObjSpec.v
theories/ObjProofs.v
theories/ObjHistory.v
theories/ObjFrame.v
theories/ObjCopy.v
theories/ObjProps.v
theories/CompModel.v
theories/CompSpec.v
theories/CompProofs.v
theories/CompProps.v
theories/F32Model.v
theories/F32Proofs.v
theories/F32HashProofs.v
theories/F32Props.v
theories/AVLPtrModel.v
theories/AVLPtrProofs.v
theories/AVLPtrRot.v
theories/AVLPtrOps.v
theories/AVLPtrPut.v
theories/AVLPtrRemove.v
theories/AVLPtrMono.v
theories/AVLPtrCalls.v
theories/AVLPtrSpec.v
theories/AVLPtrIter.v
theories/AVLPtrSys.v
theories/AVLPtrHistory.v
theories/AVLPtrWalk.v
theories/AVLPtrCalm.v
theories/AVLPtrPanic.v
theories/AVLPtrProps.v
theories/ObjCallProps.v
theories/SchemeObjModel.v
theories/SchemeObjSpec.v
theories/SchemeObjProofs.v
theories/SchemeObjProps.v
theories/TrieObjModel.v
theories/TrieObjSpec.v
theories/TrieObjProofs.v
theories/TrieObjTrie.v
theories/TrieObjMapped.v
theories/TrieObjProps.v
theories/CrcSpec.v
theories/CrcPoly.v
theories/AVLPtrRange.v
theories/AVLPtrRangeHist.v
theories/ViewModel.v
theories/ViewSpec.v
theories/ViewProofs.v
theories/ViewInv.v
theories/ViewStep.v
theories/ViewHist.v
theories/ViewProps.v
theories/TrieIterModel.v
theories/TrieIterSpec.v
theories/TrieIterProofs.v
theories/TrieIterOrder.v
theories/TrieIterRange.v
theories/TrieIterStart.v
theories/TrieIterProps.v
theories/KeygenModel.v
theories/KeygenSpec.v
theories/KeygenProofs.v
theories/KeygenProps.v
theories/KindModel.v
theories/KindSpec.v
theories/KindProofs.v
theories/KindProps.v
theories/RefillModel.v
theories/RefillSpec.v
theories/RefillProofs.v
theories/RefillProps.v
theories/TrieObjKids.v
theories/TrieObjAny.v
theories/TrieObjAnyProps.v
theories/KeyMapProps.v
theories/MutKeyModel.v
theories/MutKeySpec.v
theories/MutKeyProofs.v
theories/MutKeyClass.v
theories/MutKeySorted.v
theories/MutKeyProps.v
theories/PrintModel.v
theories/PrintSpec.v
theories/PrintProofs.v
theories/PrintProps.v
theories/EstSpec.v
theories/EstProofs.v
theories/EstProps.v
theories/EditModel.v
theories/EditSpec.v
theories/EditProofs.v
theories/EditMore.v
theories/EditProps.v
theories/ProtoModel.v
theories/ProtoSpec.v
theories/ProtoProofs.v
theories/ProtoProps.v
theories/PromptModel.v
theories/PromptSpec.v
theories/PromptProofs.v
theories/PromptProps.v
theories/LoggerModel.v
theories/LoggerSpec.v
theories/LoggerProps.v
theories/KeyPromptModel.v
theories/KeyPromptProps.v
theories/AesSpec.v
theories/AesProofs.v
theories/AesProps.v
theories/F32RunProps.v
theories/CurveModel.v
theories/CurveProofs.v
theories/CurveOrder.v
theories/CurveProps.v
theories/BuiltProps.v
theories/DigestModel.v
theories/DigestSpec.v
theories/DigestProofs.v
theories/DigestProps.v
theories/NodePathModel.v
theories/NodePathSpec.v
theories/NodePathProps.v
theories/MinMaxModel.v
theories/MinMaxProps.v
theories/ShapeSpec.v
theories/ShapeProofs.v
theories/ShapeProps.v
theories/FsyncModel.v
theories/FsyncSpec.v
theories/FsyncProps.v
theories/KeyEstProps.v
theories/FsyncCrashProps.v
