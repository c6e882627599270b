-Q theories Verif
theories/AList.v
theories/ListLib.v
theories/P2PStreamModel.v
theories/P2PStreamSpec.v
theories/P2PStreamProof.v
theories/P2PStreamProperties.v
theories/MerkleModel.v
theories/MerkleSpec.v
theories/MerkleProof.v
theories/MerkleTreeProof.v
theories/MerkleCommitProof.v
theories/MerkleMemberProof.v
theories/TrieDbModel.v
theories/TrieDbSpec.v
theories/TrieRowsProof.v
theories/TrieDbProof.v
theories/TrieLoopProof.v
theories/TrieInvProof.v
theories/TrieFinalProof.v
theories/MerkleProperties.v
theories/Radix.v
theories/FeltModel.v
theories/FeltSpec.v
theories/FeltProof.v
theories/FeltProperties.v
theories/MontModel.v
theories/MontSpec.v
theories/MontProof.v
theories/MontOpsProof.v
theories/NumTheory.v
theories/MontRootProof.v
theories/MontBytesProof.v
theories/MontPrimes.v
theories/MontProperties.v
theories/VersionModel.v
theories/VersionSpec.v
theories/VersionProof.v
theories/VersionProperties.v
theories/HashModel.v
theories/HashProperties.v
theories/SortedMap.v
theories/StateUpdateModel.v
theories/StateUpdateSpec.v
theories/StateUpdateProof.v
theories/StateUpdateProperties.v
theories/GasPriceModel.v
theories/GasPriceSpec.v
theories/GasPriceProof.v
theories/GasPriceProperties.v
theories/ProposalModel.v
theories/ProposalSpec.v
theories/ProposalProof.v
theories/ProposalTaskProof.v
theories/ProposalProperties.v
theories/ValidatorModel.v
theories/ValidatorSpec.v
theories/ValidatorProof.v
theories/ValidatorProperties.v
theories/TimeoutModel.v
theories/TimeoutSpec.v
theories/TimeoutProof.v
theories/TimeoutProperties.v
theories/WalModel.v
theories/WalSpec.v
theories/WalProof.v
theories/WalProperties.v
theories/EngineModel.v
theories/EngineSpec.v
theories/EngineProof.v
theories/EngineProperties.v
theories/BloomModel.v
theories/BloomSpec.v
theories/BloomProof.v
theories/BloomProperties.v
theories/EventModel.v
theories/EventSpec.v
theories/EventProof.v
theories/EventProperties.v
theories/GetEventsModel.v
theories/GetEventsSpec.v
theories/GetEventsProof.v
theories/GetEventsProperties.v
theories/SubscribeModel.v
theories/SubscribeSpec.v
theories/SubscribeProof.v
theories/SubscribeProperties.v
theories/ChainModel.v
theories/ChainSpec.v
theories/ChainProof.v
theories/ChainProperties.v
theories/ReverseSpec.v
theories/ReverseProof.v
theories/ReverseProperties.v
theories/ReadBackSpec.v
theories/ReadBackProof.v
theories/ReadBackProperties.v
theories/CommitModel.v
theories/CommitSpec.v
theories/CommitProof.v
theories/BlockHashProof.v
theories/CommitTotalProof.v
theories/CommitProperties.v
theories/CodecModel.v
theories/CodecProof.v
theories/CodecProperties.v
theories/ProducerModel.v
theories/ProducerSpec.v
theories/ProducerProof.v
theories/ProducerProperties.v
theories/TxHashModel.v
theories/TxHashSpec.v
theories/TxHashProof.v
theories/TxHashProperties.v
theories/EstimateModel.v
theories/EstimateSpec.v
theories/EstimateProof.v
theories/EstimateProperties.v
theories/TraceCacheModel.v
theories/TraceCacheSpec.v
theories/TraceCacheProof.v
theories/TraceCacheProperties.v
theories/RpcReadModel.v
theories/RpcReadSpec.v
theories/RpcReadProof.v
theories/RpcReadProperties.v
theories/TxLookupModel.v
theories/TxLookupSpec.v
theories/TxLookupProof.v
theories/TxLookupProperties.v
theories/PendingPollModel.v
theories/PendingPollSpec.v
theories/PendingPollProof.v
theories/PendingPollProperties.v
theories/JsonRpcModel.v
theories/JsonRpcSpec.v
theories/JsonRpcProof.v
theories/JsonRpcProperties.v
theories/SubLifeModel.v
theories/SubLifeSpec.v
theories/SubLifeProof.v
theories/SubLifeProperties.v
theories/L1LogModel.v
theories/L1LogSpec.v
theories/L1LogProof.v
theories/L1LogProperties.v
theories/HeaderSyncModel.v
theories/HeaderSyncSpec.v
theories/HeaderSyncProof.v
theories/HeaderSyncProperties.v
theories/TrackModel.v
theories/TrackSpec.v
theories/TrackChecks.v
theories/TrackProof.v
theories/TrackLive.v
theories/TrackHonest.v
theories/TrackProperties.v
theories/StateRootModel.v
theories/StateRootSpec.v
theories/StateRootProof.v
theories/StateRootRun.v
theories/StateRootBind.v
theories/StateRootProperties.v
theories/StorageProofModel.v
theories/StorageProofSpec.v
theories/StorageProofProof.v
theories/StorageProofRun.v
theories/StorageProofInv.v
theories/StorageProofBind.v
theories/StorageProofProperties.v
theories/TxStatusModel.v
theories/TxStatusSpec.v
theories/TxStatusProof.v
theories/TxStatusProperties.v
theories/ServeModel.v
theories/ServeSpec.v
theories/ServeProof.v
theories/ServeProperties.v
theories/BlobModel.v
theories/BlobSpec.v
theories/BlobProof.v
theories/BlobProperties.v
theories/ClassHashModel.v
theories/ClassHashSpec.v
theories/ClassHashProof.v
theories/ClassHashProperties.v
theories/WireModel.v
theories/WireSpec.v
theories/WireProof.v
theories/WireProof2.v
theories/WireProof3.v
theories/WireProperties.v
theories/CurveGroup.v
theories/CurveField.v
theories/CurveSpec.v
theories/CurveRoot.v
theories/CurvePoints.v
theories/CurveOrder.v
theories/CurveModel.v
theories/CurveMeanSpec.v
theories/CurveProof.v
theories/CurveTables.v
theories/CurveMain.v
theories/CurveProperties.v
theories/EcdsaModel.v
theories/EcdsaSpec.v
theories/EcdsaProof.v
theories/EcdsaMain.v
theories/EcdsaProperties.v
theories/PoseidonModel.v
theories/PoseidonSpec.v
theories/PoseidonProof.v
theories/PoseidonProperties.v
theories/PeersModel.v
theories/PeersSpec.v
theories/PeersProof.v
theories/PeersRun.v
theories/PeersProperties.v
theories/ExecClassModel.v
theories/ExecClassSpec.v
theories/ExecClassProof.v
theories/ExecClassProperties.v
theories/DecidedModel.v
theories/DecidedSpec.v
theories/DecidedProof.v
theories/DecidedProperties.v
