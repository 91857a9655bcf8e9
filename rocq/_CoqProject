-Q theories Verif
theories/CircularBufferModel.v
theories/CircularBufferSpec.v
theories/CircularBufferProofs.v
theories/CircularBufferExnModel.v
theories/CircularBufferExnProofs.v
theories/CircularBufferProps.v
theories/CacheModel.v
theories/CacheSpec.v
theories/CacheProofs.v
theories/CacheProps.v
theories/BitsetModel.v
theories/BitsetSpec.v
theories/BitsetProofs.v
theories/BitsetProps.v
theories/SmallVectorModel.v
theories/SmallVectorSpec.v
theories/SmallVectorProofs.v
theories/SmallVectorProps.v
theories/MatrixModel.v
theories/MatrixSpec.v
theories/MatrixProofs.v
theories/MatrixProps.v
theories/StdSort.v
theories/AlgorithmModel.v
theories/AlgorithmSpec.v
theories/AlgorithmProofs.v
theories/AlgorithmProps.v
theories/FloatBase.v
theories/FloatModel.v
theories/FloatSpec.v
theories/FloatProofs.v
theories/FloatProps.v
theories/ParetoModel.v
theories/ParetoProofs.v
theories/FrontModel.v
theories/FrontSpec.v
theories/FrontProofs.v
theories/FrontProps.v
theories/MergeModel.v
theories/MergeSpec.v
theories/MergeProofs.v
theories/MergeProps.v
theories/NdSortModel.v
theories/NdFloatModel.v
theories/NdSortSpec.v
theories/NdSortProofs.v
theories/NdFastProofs.v
theories/NdDegreeProofs.v
theories/NdViewProofs.v
theories/NdSortProps.v
theories/CrossoverModel.v
theories/CrossoverSpec.v
theories/CrossoverProofs.v
theories/CrossoverCycleProofs.v
theories/CrossoverPmxProofs.v
theories/CrossoverEdgeProofs.v
theories/CrossoverUnsignedProofs.v
theories/CrossoverProps.v
theories/CrossoverMoreProofs.v
theories/CrossoverMoreProps.v
theories/OperatorModel.v
theories/OperatorSpec.v
theories/RealCrossoverModel.v
theories/RealSpec.v
theories/RealProofs.v
theories/RealCrossoverProofs.v
theories/RealCrossoverProps.v
theories/RealErrorProofs.v
theories/RealMoreProps.v
theories/CrossoverOpProps.v
theories/RandModel.v
theories/RandSpec.v
theories/RandProofs.v
theories/BinomialProofs.v
theories/RandProps.v
theories/MutationModel.v
theories/MutationSpec.v
theories/PermMutationProofs.v
theories/PermMutationProps.v
theories/MutationProofs.v
theories/MutationProofs2.v
theories/MutationProps.v
theories/MutationOpProps.v
theories/ReplacementModel.v
theories/ReplacementSpec.v
theories/ReplacementProps.v
theories/SelectionModel.v
theories/SelectionSpec.v
theories/SelectionProofs.v
theories/SelectionWeights.v
theories/SelectionProps.v
theories/Nsga2Model.v
theories/Nsga2Spec.v
theories/Nsga2Proofs.v
theories/Nsga2Props.v
theories/Nsga3Model.v
theories/Nsga3Spec.v
theories/Nsga3Proofs.v
theories/Nsga3Niche.v
theories/Nsga3Props.v
theories/EngineModel.v
theories/EngineSpec.v
theories/EngineProofs.v
theories/EngineRuns.v
theories/EngineProps.v
theories/EngineCacheProps.v
theories/EngineSolutionsProps.v
theories/EngineBestProps.v
theories/EngineExample.v
theories/EngineStepSpec.v
theories/EngineStepProps.v
theories/EngineStepExample.v
theories/EngineSchedule.v
theories/EngineRealProps.v
theories/StatsModel.v
theories/StatsSpec.v
theories/StatsProofs.v
theories/StatsProps.v
theories/StopModel.v
theories/StopSpec.v
theories/StopProofs.v
theories/StopProps.v
theories/StopMoreProps.v
theories/HyperModel.v
theories/HyperSpec.v
theories/HyperProofs.v
theories/HyperNum.v
theories/HyperAuto.v
theories/HyperProps.v
theories/RngModel.v
theories/RngSpec.v
theories/RngPrime.v
theories/RngProofs.v
theories/RngThreads.v
theories/RngProps.v
theories/RngRefProps.v
theories/QrngModel.v
theories/QrngProps.v
theories/QrngSeqProps.v
theories/LockModel.v
theories/LockProps.v
theories/LockMoreProps.v
theories/QueueModel.v
theories/QueueProps.v
theories/RcuModel.v
theories/RcuProps.v
theories/RcuMoreProps.v
theories/PoolModel.v
theories/PoolProofs.v
theories/PoolProgress.v
theories/PoolProps.v
theories/PoolMoreProps.v
theories/ConeModel.v
theories/ConeSpec.v
theories/ConeProofs.v
theories/ConeProps.v
theories/RefModel.v
theories/RefSpec.v
theories/RefProofs.v
theories/RefProps.v
theories/RefMoreProps.v
theories/MutationMoreProofs.v
theories/MutationRealProofs.v
theories/MutationMoreProps.v
theories/RandMoreProofs.v
theories/RandMoreProps.v
theories/EncodingModel.v
theories/EncodingProps.v
theories/SelectionMoreSpec.v
theories/SelectionMoreProofs.v
theories/SelectionMoreProps.v
theories/Nsga3MoreSpec.v
theories/Nsga3MoreProofs.v
theories/Nsga3LineProofs.v
theories/Nsga3MoreProps.v
theories/ProblemModel.v
theories/ProblemSpec.v
theories/ProblemProofs.v
theories/ProblemSingleProps.v
theories/ProblemMultiProofs.v
theories/ProblemMultiProps.v
theories/ProblemManyProofs.v
theories/ProblemManyProps.v
theories/ConvertModel.v
theories/ConvertSpec.v
theories/ConvertProofs.v
theories/ConvertProps.v
theories/ProblemOtherSpec.v
theories/ProblemOtherProps.v
theories/IteratorModel.v
theories/IteratorSpec.v
theories/IteratorProps.v
theories/SmallVectorExnModel.v
theories/SmallVectorExnSpec.v
theories/SmallVectorExnProofs.v
theories/SmallVectorExnProps.v
theories/MathModel.v
theories/MathSpec.v
theories/MathProps.v
theories/BoundedModel.v
theories/BoundedProps.v
theories/ShutdownModel.v
theories/ShutdownProps.v
theories/ScopeModel.v
theories/ScopeProps.v
theories/ConfigModel.v
theories/ConfigProps.v
theories/ModularModel.v
theories/ModularProps.v
theories/MetricSetModel.v
theories/MetricSetProps.v
theories/FunctionalModel.v
theories/FunctionalProps.v
