-Q theories Verif
theories/Lib.v
theories/RowIdsModel.v
theories/RowIdsSpec.v
theories/EncArrProofs.v
theories/BitmapProofs.v
theories/SegProofs.v
theories/SeqProofs.v
theories/RechunkProofs.v
theories/RowIdsExamples.v
theories/RowIdsProps.v
theories/ReadParamsModel.v
theories/ReadParamsProofs.v
theories/ReadParamsProps.v
theories/SerdeModel.v
theories/SerdeProofs.v
theories/WireModel.v
theories/WireProofs.v
theories/SerdeProps.v
theories/AMap.v
theories/TreeMapModel.v
theories/TreeMapProofs.v
theories/TreeMapProofs2.v
theories/MaskProofs.v
theories/SeqSetProofs.v
theories/MaskProps.v
theories/DeletionModel.v
theories/DeletionSpec.v
theories/DeletionProofs.v
theories/UpdaterProofs.v
theories/DeletionProps.v
theories/StreamModel.v
theories/StreamProofs.v
theories/StreamProps.v
theories/TakeModel.v
theories/OffsetsProofs.v
theories/OffsetsProps.v
theories/TakeProofs.v
theories/TakeOffsets.v
theories/FilterProofs.v
theories/TakeProps.v
theories/TxnModel.v
theories/TxnSpec.v
theories/TxnLemmas.v
theories/TxnIdsProofs.v
theories/TxnFrame.v
theories/TxnRowIds.v
theories/TxnConfig.v
theories/TxnRewrite.v
theories/TxnExamples.v
theories/TxnMatrix.v
theories/TxnProps.v
theories/BitsModel.v
theories/BitsProofs.v
theories/NamingModel.v
theories/NamingProofs.v
theories/NamingProps.v
theories/ChunkerModel.v
theories/ChunkerProofs.v
theories/ChunkerProps.v
theories/SamplerModel.v
theories/SamplerProofs.v
theories/SamplerProps.v
theories/SchedModel.v
theories/SchedProofs.v
theories/SchedQueue.v
theories/SchedProps.v
theories/CompactModel.v
theories/CompactProofs.v
theories/CompactProps.v
theories/RemapProofs.v
theories/RemapProps.v
theories/ScalarModel.v
theories/ScalarProofs.v
theories/BitmapIndexProofs.v
theories/BTreeMaintProofs.v
theories/ScalarProps.v
theories/IndexExprModel.v
theories/IndexExprProofs.v
theories/ScanModel.v
theories/ScanProofs.v
theories/ScanIndexProofs.v
theories/ScanExamples.v
theories/ScanCover.v
theories/ScanProps.v
theories/CoerceModel.v
theories/CoerceProofs.v
theories/CoerceProps.v
theories/ProtoModel.v
theories/ProtoSpec.v
theories/ProtoProofs.v
theories/ProtoExtProofs.v
theories/ProtoExamples.v
theories/ProtoResults.v
theories/ProtoProps.v
theories/LoopModel.v
theories/LoopProofs.v
theories/LoopExamples.v
theories/LoopProps.v
theories/SchemaModel.v
theories/SchemaProofs.v
theories/PbModel.v
theories/PbProofs.v
theories/PbMem.v
theories/PbExamples.v
theories/PbTxn.v
theories/PbProps.v
theories/PbTxnProps.v
theories/SchemaProps.v
theories/CleanupModel.v
theories/CleanupProofs.v
theories/CleanupProps.v
theories/BatchModel.v
theories/BatchProofs.v
theories/BatchProps.v
theories/TagModel.v
theories/TagProofs.v
theories/TagProps.v
theories/FlagModel.v
theories/FlagProofs.v
theories/FlagProps.v
theories/TxnIndexSpec.v
theories/TxnIndexProofs.v
theories/TxnIndexExamples.v
theories/TxnIndexProps.v
theories/TxnReserve.v
theories/TxnReserveProps.v
theories/MergeModel.v
theories/MergeSpec.v
theories/MergeProofs.v
theories/MergeProofs2.v
theories/MergeExamples.v
theories/MergeConc.v
theories/MergeProps.v
theories/FragReadModel.v
theories/FragReadProofs.v
theories/FragReadProps.v
theories/LimitModel.v
theories/LimitProofs.v
theories/LimitProps.v
theories/ProjModel.v
theories/ProjProofs.v
theories/ProjIds.v
theories/ProjDrop.v
theories/ProjProps.v
theories/CmpModel.v
theories/CmpProofs.v
theories/WriteSchemaModel.v
theories/WriteSchemaProofs.v
theories/CmpProps.v
theories/AddColsModel.v
theories/AddColsProofs.v
theories/AddColsProps.v
theories/AlterModel.v
theories/AlterProofs.v
theories/AlterData.v
theories/AlterProps.v
theories/JoinModel.v
theories/JoinProofs.v
theories/JoinData.v
theories/NullModel.v
theories/NullProofs.v
theories/JoinProps.v
theories/PageModel.v
theories/PageProofs.v
theories/ListEncModel.v
theories/ListEncProofs.v
theories/ListEncRead.v
theories/PageProps.v
theories/BinEncModel.v
theories/BinEncProofs.v
theories/BinEncProps.v
theories/ProjSect.v
theories/ProjSectProps.v
theories/RepDefModel.v
theories/RepDefProofs.v
theories/RepDefRead.v
theories/RepDefProps.v
theories/RepDefList.v
theories/RepDefListRead.v
theories/RepDefNest.v
theories/RepDefListProps.v
theories/FullZipModel.v
theories/FullZipProofs.v
theories/FullZipRead.v
theories/FullZipPage.v
theories/FullZipVar.v
theories/FullZipExamples.v
theories/FullZipProps.v
theories/MiniModel.v
theories/MiniProofs.v
theories/MiniSched.v
theories/MiniBytes.v
theories/MiniPage.v
theories/MiniRead.v
theories/MiniString.v
theories/MiniExamples.v
theories/MiniProps.v
theories/FtsModel.v
theories/FtsProofs.v
theories/FtsPhrase.v
theories/FtsIndex.v
theories/FtsIndexProofs.v
theories/FtsSearch.v
theories/FtsPlan.v
theories/FtsExamples.v
theories/FtsProps.v
theories/KnnModel.v
theories/KnnProofs.v
theories/KnnPlan.v
theories/KnnResults.v
theories/KnnExamples.v
theories/KnnProps.v
theories/StatsModel.v
theories/StatsProofs.v
theories/StatsBytes.v
theories/StatsCollect.v
theories/PushModel.v
theories/PushProofs.v
theories/PushScan.v
theories/PushExamples.v
theories/StatsProps.v
theories/BlobModel.v
theories/BlobProofs.v
theories/BlobFile.v
theories/BlobExamples.v
theories/BlobProps.v
theories/UploadModel.v
theories/UploadProofs.v
theories/UploadExamples.v
theories/UploadProps.v
theories/StableModel.v
theories/StableProofs.v
theories/StableGap.v
theories/StableExamples.v
theories/StableProps.v
theories/DictModel.v
theories/DictProofs.v
theories/DictExamples.v
theories/DictProps.v
theories/FastModel.v
theories/FastProofs.v
theories/FastChunk.v
theories/FastExamples.v
theories/FastProps.v
theories/FlatModel.v
theories/FlatProofs.v
theories/FlatPage.v
theories/FlatExamples.v
theories/FlatProps.v
theories/DColModel.v
theories/DColProofs.v
theories/DColPage.v
theories/DColExamples.v
theories/DColProps.v
theories/SDictModel.v
theories/SDictProofs.v
theories/SDictExamples.v
theories/SDictProps.v
theories/ColMapModel.v
theories/ColMapProofs.v
theories/ColMapWhole.v
theories/ColMapExamples.v
theories/ColMapProps.v
theories/PackModel.v
theories/PackProofs.v
theories/PackExamples.v
theories/PackProps.v
theories/File2Model.v
theories/File2Proofs.v
theories/File2Data.v
theories/File2Whole.v
theories/File2Examples.v
theories/File2Props.v
theories/NotNullModel.v
theories/NotNullProofs.v
theories/NotNullExamples.v
theories/NotNullProps.v
theories/AccumModel.v
theories/AccumProofs.v
theories/AccumExamples.v
theories/AccumProps.v
theories/FsstModel.v
theories/FsstTable.v
theories/FsstProofs.v
theories/FsstExamples.v
theories/FsstProps.v
theories/VecIdxModel.v
theories/VecIdxProofs.v
theories/VecIdxWhole.v
theories/VecIdxExamples.v
theories/VecIdxProps.v
theories/IdxOptModel.v
theories/IdxOptProofs.v
theories/IdxOptExamples.v
theories/IdxOptProps.v
theories/ShareModel.v
theories/ShareProofs.v
theories/ShareLive.v
theories/ShareWhole.v
theories/ShareExamples.v
theories/ShareProps.v
theories/LateModel.v
theories/LateProofs.v
theories/LateWhole.v
theories/LateExamples.v
theories/LateProps.v
theories/PlainModel.v
theories/PlainProofs.v
theories/PlainTake.v
theories/PlainExamples.v
theories/PlainProps.v
theories/VarBinModel.v
theories/VarBinProofs.v
theories/VarBinTake.v
theories/VarBinExamples.v
theories/VarBinProps.v
theories/OneFileModel.v
theories/OneFileProofs.v
theories/OneFileTake.v
theories/OneFileExamples.v
theories/OneFileProps.v
theories/OneListModel.v
theories/OneListProofs.v
theories/OneListExamples.v
theories/OneListProps.v
theories/PTabModel.v
theories/PTabProofs.v
theories/PTabExamples.v
theories/PTabProps.v
theories/MFileModel.v
theories/MFileProofs.v
theories/MFileExamples.v
theories/MFileProps.v
