-Q theories Verif
theories/AMap.v
theories/ActModel.v
theories/ActProps.v
theories/AdafactorModel.v
theories/AdafactorProofs.v
theories/AdafactorProofs2.v
theories/AdafactorProofs3.v
theories/AdafactorProofs4.v
theories/AdafactorProps.v
theories/AdafactorReal.v
theories/AdafactorRealModel.v
theories/AdafactorRealProps.v
theories/AdafactorRealSpec.v
theories/AdafactorRulesModel.v
theories/AdafactorRulesProps.v
theories/AdafactorSpec.v
theories/AdafactorStackProps.v
theories/AdafactorStackSpec.v
theories/AdafactorTree.v
theories/AlignModel.v
theories/AlignProps.v
theories/AssignModel.v
theories/AssignProps.v
theories/AsyncLogModel.v
theories/AsyncLogProps.v
theories/AxisModel.v
theories/AxisProofs.v
theories/AxisProps.v
theories/AxisSpec.v
theories/Base.v
theories/BeamModel.v
theories/BeamPrefillNetProps.v
theories/BeamPrefillScoreProps.v
theories/BeamProofs.v
theories/BeamProps.v
theories/BeamProps2.v
theories/BeamRealModel.v
theories/BeamRealProps.v
theories/BeamScoreProofs.v
theories/BeamScoreProps.v
theories/BeamScoreSpec.v
theories/BeamUtilModel.v
theories/BeamUtilProps.v
theories/BsearchModel.v
theories/BsearchProofs.v
theories/BsearchProps.v
theories/BsearchSpec.v
theories/CacheModel.v
theories/CacheProofs.v
theories/CacheProps.v
theories/CacheSpec.v
theories/CalmModel.v
theories/CalmProofs.v
theories/CalmProps.v
theories/CalmSampleModel.v
theories/CalmSampleProps.v
theories/CalmSampleSpec.v
theories/CalmSpec.v
theories/ChunkInferModel.v
theories/ChunkInferProofs.v
theories/ChunkInferProps.v
theories/ChunkInferSpec.v
theories/ChunkShapeModel.v
theories/ChunkShapeProps.v
theories/ChunkerModel.v
theories/ChunkerProofs.v
theories/ChunkerProps.v
theories/CliModel.v
theories/CliProps.v
theories/ConvertModel.v
theories/ConvertProps.v
theories/ConvertSpec.v
theories/CrossEntropyModel.v
theories/CrossEntropyProps.v
theories/DataModel.v
theories/DataProps.v
theories/DetectModel.v
theories/DetectProps.v
theories/DrawModel.v
theories/DrawProofs.v
theories/DrawProps.v
theories/DrawSpec.v
theories/DsIterModel.v
theories/DsIterProps.v
theories/EvalModel.v
theories/EvalProps.v
theories/ExportCfgModel.v
theories/ExportCfgProps.v
theories/ExportFnModel.v
theories/ExportFnProps.v
theories/ExportPreModel.v
theories/ExportPreProps.v
theories/GradScaleModel.v
theories/GradScaleProps.v
theories/GraduateModel.v
theories/GraduateProps.v
theories/GraduateSpec.v
theories/ImportModel.v
theories/ImportProofs.v
theories/ImportProofs2.v
theories/ImportProofs3.v
theories/ImportProofs4.v
theories/ImportProofs5.v
theories/ImportProps.v
theories/ImportSpec.v
theories/InferModel.v
theories/InferProofs.v
theories/InferProps.v
theories/InferSpec.v
theories/InteractiveModel.v
theories/InteractiveProps.v
theories/LayersModel.v
theories/LayersProps.v
theories/LayersSpec.v
theories/LazyModel.v
theories/LazyProps.v
theories/LazySpec.v
theories/LimiterModel.v
theories/LimiterProps.v
theories/LoopModel.v
theories/LoopProofs.v
theories/LoopProps.v
theories/LoopSpec.v
theories/LossModel.v
theories/LossProps.v
theories/MeshLayout.v
theories/MeshModel.v
theories/MeshProofs.v
theories/MeshProps.v
theories/MeshProps2.v
theories/MeshProps3.v
theories/MetricsModel.v
theories/MetricsProps.v
theories/MicroModel.v
theories/MicroProps.v
theories/MoeLossModel.v
theories/MoeLossProps.v
theories/MoeStateModel.v
theories/MoeStateProps.v
theories/MultiAxesModel.v
theories/MultiAxesProps.v
theories/MultiModel.v
theories/MultiProofs.v
theories/MultiProps.v
theories/NamesModel.v
theories/NamesProps.v
theories/NdArray.v
theories/NetDecodeModel.v
theories/NetDecodeProofs.v
theories/NetDecodeProps.v
theories/NetDecodeSpec.v
theories/OptaxAxesModel.v
theories/OptaxAxesProps.v
theories/OptaxModel.v
theories/OptaxProofs.v
theories/OptaxProofs2.v
theories/OptaxProps.v
theories/OptaxSpec.v
theories/OrbaxModel.v
theories/OrbaxPathModel.v
theories/OrbaxPathProps.v
theories/OrbaxProps.v
theories/OutputModel.v
theories/OutputProps.v
theories/OverrideModel.v
theories/OverrideProps.v
theories/PackModel.v
theories/PackProofs.v
theories/PackProps.v
theories/PackSpec.v
theories/PoolModel.v
theories/PoolProps.v
theories/PyDict.v
theories/Regex.v
theories/RelPosModel.v
theories/RelPosProps.v
theories/RestartModel.v
theories/RestartProps.v
theories/RestoreCfgModel.v
theories/RestoreCfgProps.v
theories/RestoreEntryModel.v
theories/RestoreEntryProps.v
theories/RetentionModel.v
theories/RetentionProofs.v
theories/RetentionProofs2.v
theories/RetentionProps.v
theories/RetentionSpec.v
theories/SampleModel.v
theories/SampleProofs.v
theories/SampleProofs2.v
theories/SampleProps.v
theories/SampleProps2.v
theories/SampleScoreProps.v
theories/SaveLive.v
theories/SaveModel.v
theories/SaveProofs.v
theories/SaveProofs2.v
theories/SaveProofs3.v
theories/SaveProps.v
theories/SaveSpec.v
theories/ScheduleModel.v
theories/ScheduleProps.v
theories/ScoreDecodeProps.v
theories/ScoreModel.v
theories/ScoreProps.v
theories/ScoreSpec.v
theories/StateModel.v
theories/StateProofs.v
theories/StateProofs2.v
theories/StateProps.v
theories/StateSpec.v
theories/Str.v
theories/TStateModel.v
theories/TStateProofs.v
theories/TStateProps.v
theories/TStateSpec.v
theories/TimelineModel.v
theories/TimelineProps.v
theories/TokensModel.v
theories/TokensProps.v
theories/TopkModel.v
theories/TopkProps.v
theories/TrainModel.v
theories/TrainProps.v
theories/TrainerObjModel.v
theories/TrainerObjProps.v
theories/TrainerObjSpec.v
theories/TsPathModel.v
theories/TsPathProps.v
theories/UpcycleModel.v
theories/UpcycleProps.v
theories/UpcycleSpec.v
theories/VocabModel.v
theories/VocabProps.v
theories/WarmupModel.v
theories/WarmupProps.v
theories/WriteStateModel.v
theories/WriteStateProps.v
