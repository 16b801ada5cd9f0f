-Q theories Verif
theories/AdaptModel.v
theories/AdaptProps.v
theories/AdvSearchModel.v
theories/AdvSearchProofs.v
theories/AdvSearchProps.v
theories/AdvSearchSpec.v
theories/AggModel.v
theories/AggProofs.v
theories/AggProps.v
theories/AggSpec.v
theories/ArgModel.v
theories/ArgProps.v
theories/AutoModel.v
theories/AutoProps.v
theories/BackupModel.v
theories/BackupProps.v
theories/Base.v
theories/ChatModel.v
theories/ChatProofs.v
theories/ChatProps.v
theories/ChatSpec.v
theories/CommunityProofs.v
theories/CommunityProps.v
theories/DimensionModel.v
theories/DimensionProofs.v
theories/DimensionProps.v
theories/DiversityModel.v
theories/DiversityProofs.v
theories/DiversityProps.v
theories/DiversitySpec.v
theories/EncodingModel.v
theories/EncodingProofs.v
theories/EncodingProps.v
theories/EncodingSpec.v
theories/ErrModel.v
theories/ErrProps.v
theories/ErrSpec.v
theories/FacetModel.v
theories/FacetProofs.v
theories/FacetProps.v
theories/FacetSpec.v
theories/FilterModel.v
theories/FilterProofs.v
theories/FilterProofs2.v
theories/FilterProps.v
theories/FilterSpec.v
theories/FlatModel.v
theories/FlatProofs.v
theories/FlatProps.v
theories/FlatSpec.v
theories/FloatPosProofs.v
theories/FloatReal.v
theories/Floats64.v
theories/GeoFloatProofs.v
theories/GeoModel.v
theories/GeoProofs.v
theories/GeoProps.v
theories/GeoSpec.v
theories/GraphAlgoModel.v
theories/GraphAlgoSpec.v
theories/GraphBatchProps.v
theories/GraphBfsProofs.v
theories/GraphExportModel.v
theories/GraphExportProps.v
theories/GraphExportSpec.v
theories/GraphHnswModel.v
theories/GraphHnswProofs.v
theories/GraphHnswProps.v
theories/GraphHnswSpec.v
theories/GraphHybridProofs.v
theories/GraphModel.v
theories/GraphNeighborProofs.v
theories/GraphProofs.v
theories/GraphProps.v
theories/GraphSpec.v
theories/GraphStatsProofs.v
theories/GraphStatsProps.v
theories/GraphTravProofs.v
theories/GraphXmlFloat.v
theories/GraphXmlModel.v
theories/GraphXmlProps.v
theories/GraphXmlSpec.v
theories/HeapModel.v
theories/HeapProofs.v
theories/HeapTopK.v
theories/HindModel.v
theories/HindProofs.v
theories/HindProofs2.v
theories/HindProofs3.v
theories/HindProps.v
theories/HindSpec.v
theories/HnswModel.v
theories/HnswProofs.v
theories/HnswProofs2.v
theories/HnswProps.v
theories/HnswSearchProofs.v
theories/HnswSpec.v
theories/IncIndexModel.v
theories/IncIndexProps.v
theories/IndexDistModel.v
theories/IntAdd32Proofs.v
theories/IntAddProofs.v
theories/IoModel.v
theories/IoProofs.v
theories/IoProps.v
theories/IoSpec.v
theories/IvfModel.v
theories/IvfProofs.v
theories/IvfProps.v
theories/IvfSpec.v
theories/KnowEx.v
theories/KnowModel.v
theories/KnowProofs.v
theories/KnowProofs2.v
theories/KnowProofs3.v
theories/KnowProps.v
theories/KnowProps2.v
theories/KnowSpec.v
theories/LexRagModel.v
theories/LexRagProofs.v
theories/LexRagProps.v
theories/LexRagSpec.v
theories/LockModel.v
theories/LockProofs.v
theories/LockProps.v
theories/LockSpec.v
theories/LogModel.v
theories/LogProofs.v
theories/LogProps.v
theories/LogSpec.v
theories/LshModel.v
theories/LshProofs.v
theories/LshProps.v
theories/LshSpec.v
theories/McpModel.v
theories/McpProps.v
theories/MemModel.v
theories/MemProofs.v
theories/MemProps.v
theories/MemSearchProofs.v
theories/MemSpec.v
theories/MockModel.v
theories/MockProps.v
theories/MultiIndexModel.v
theories/MultiIndexProofs.v
theories/MultiIndexProps.v
theories/MultiIndexSpec.v
theories/MultiVecModel.v
theories/MultiVecProofs.v
theories/MultiVecProps.v
theories/MultiVecSpec.v
theories/ObserveModel.v
theories/ObserveProps.v
theories/PQModel.v
theories/PQProofs.v
theories/PQProps.v
theories/PQSpec.v
theories/PageRankProofs.v
theories/PageRankProps.v
theories/ParseModel.v
theories/ParseProofs.v
theories/ParseProofs2.v
theories/ParseProps.v
theories/ParseSpec.v
theories/PlaceProofs.v
theories/QStoreModel.v
theories/QStoreProofs.v
theories/QStoreProps.v
theories/QStoreSpec.v
theories/QuantModel.v
theories/QuantProofs.v
theories/QuantProps.v
theories/QuantSpec.v
theories/RagModel.v
theories/RagProofs.v
theories/RagProps.v
theories/RagSearchProofs.v
theories/RagSpec.v
theories/RagTextProofs.v
theories/RangeProofs.v
theories/RatioModel.v
theories/RatioProps.v
theories/ReflectTextModel.v
theories/ReflectTextProps.v
theories/RerankModel.v
theories/RerankProofs.v
theories/RerankProps.v
theories/RerankSpec.v
theories/RouterModel.v
theories/RouterProofs.v
theories/RouterProps.v
theories/RouterSpec.v
theories/RouterStoreProofs.v
theories/SearchModel.v
theories/SearchProofs.v
theories/SearchProps.v
theories/SearchSpec.v
theories/SimilarityModel.v
theories/SimilarityProofs.v
theories/SimilarityProps.v
theories/SimilaritySpec.v
theories/SnapModel.v
theories/SnapProofs.v
theories/SnapProps.v
theories/SparseModel.v
theories/SparseProofs.v
theories/SparseProps.v
theories/SparseSpec.v
theories/SqlModel.v
theories/StartModel.v
theories/StartProofs.v
theories/StartProps.v
theories/StoreIndexModel.v
theories/StoreIndexProofs.v
theories/StoreIndexProofs2.v
theories/StoreIndexProps.v
theories/StoreIndexSpec.v
theories/StoreInv.v
theories/StoreModel.v
theories/StoreProofs.v
theories/StoreProofs2.v
theories/StoreProofs3.v
theories/StoreProps.v
theories/StoreQueryProofs.v
theories/StoreQueryProps.v
theories/StoreQuerySpec.v
theories/StoreSpec.v
theories/StreamModel.v
theories/StreamProofs.v
theories/StreamProps.v
theories/StreamSpec.v
theories/TextApiModel.v
theories/TextApiProofs.v
theories/TextApiProps.v
theories/TextApiSpec.v
theories/ToolGraphModel.v
theories/ToolGraphProofs.v
theories/ToolGraphProofs2.v
theories/ToolGraphProps.v
theories/ToolGraphProps2.v
theories/ToolGraphSpec.v
theories/ToolTextModel.v
theories/ToolTextProofs.v
theories/ToolTextProofs2.v
theories/ToolTextProps.v
theories/ToolTextSpec.v
theories/TopK.v
theories/TrainModel.v
theories/TrainProofs.v
theories/TrainProofs2.v
theories/TrainProps.v
theories/TrainSpec.v
