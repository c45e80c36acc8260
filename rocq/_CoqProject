-Q theories Verif
theories/Base.v
theories/BaseLemmas.v
theories/GraphModel.v
theories/GraphSpec.v
theories/GraphProofs.v
theories/Hop3Proofs.v
theories/Reg2DProofs.v
theories/LaplacianProofs.v
theories/McfModel.v
theories/McfSpec.v
theories/PhaseProofs.v
theories/DualProofs.v
theories/Props_Graph.v
theories/ResidueProofs.v
theories/FlowProofs.v
theories/FloodProofs.v
theories/UnwrapProofs.v
theories/OracleProofs.v
theories/Props_Mcf.v
theories/EmcfModel.v
theories/EmcfSpec.v
theories/PoolProofs.v
theories/BatchProofs.v
theories/EmcfProofs.v
theories/CubeProofs.v
theories/Props_Emcf.v
theories/FloatModel.v
theories/FloatProofs.v
theories/TileModel.v
theories/TileSpec.v
theories/TileProofs.v
theories/JsonModel.v
theories/JsonProofs.v
theories/NamesModel.v
theories/NamesProofs.v
theories/Props_Tile.v
theories/OverlapModel.v
theories/OverlapSpec.v
theories/OverlapProofs.v
theories/Props_Overlap.v
theories/BulkModel.v
theories/BulkSpec.v
theories/BulkProofs.v
theories/Props_Bulk.v
theories/DirichletModel.v
theories/DirichletSpec.v
theories/DirichletProofs.v
theories/Props_Dirichlet.v
theories/LeastSquaresProofs.v
theories/Props_LeastSquares.v
theories/MergeModel.v
theories/MergeSpec.v
theories/TileStateProofs.v
theories/AdjustProofs.v
theories/BandProofs.v
theories/MergeBatchProofs.v
theories/DescribeProofs.v
theories/Props_Merge.v
theories/WorkflowModel.v
theories/WorkflowSpec.v
theories/WorkflowProofs.v
theories/WorkflowSteps.v
theories/WorkflowMerge.v
theories/WorkflowMain.v
theories/WorkflowResume.v
theories/WorkflowCrash.v
theories/Props_Workflow.v
theories/SettingsModel.v
theories/SettingsSpec.v
theories/Props_Settings.v
theories/ThreeDModel.v
theories/ThreeDSpec.v
theories/ThreeDProofs.v
theories/Props_ThreeD.v
theories/SlcModel.v
theories/SlcSpec.v
theories/SlcProofs.v
theories/Props_Slc.v
theories/LinksModel.v
theories/LinksSpec.v
theories/LinksProofs.v
theories/Props_Links.v
theories/LinkGridModel.v
theories/LinkGridSpec.v
theories/LinkGridProofs.v
theories/Props_LinkGrid.v
theories/CostModel.v
theories/CostSpec.v
theories/CostProofs.v
theories/Props_Cost.v
theories/UnwrapTileModel.v
theories/PipelineSpec.v
theories/UnwrapTileProofs.v
theories/PipelineProofs.v
theories/StripProofs.v
theories/Props_Pipeline.v
theories/FixedProofs.v
theories/ExactMergeProofs.v
theories/ExactSpec.v
theories/ExactTileProofs.v
theories/ExactBulkProofs.v
theories/ExactRunProofs.v
theories/ExactWitness.v
theories/Props_Exact.v
theories/TotalProofs.v
theories/TotalRunProofs.v
theories/TotalMergeProofs.v
theories/Props_Total.v
theories/Props_Islands.v
theories/Props_Recorded.v
theories/EulerSpec.v
theories/EulerProofs.v
theories/Props_Euler.v
theories/FloatMcfModel.v
theories/FloatMcfSpec.v
theories/FloatMcfRound.v
theories/FloatPhaseProofs.v
theories/FloatFloodProofs.v
theories/FloatResidueProofs.v
theories/FloatMcfProofs.v
theories/FloatUnwrapProofs.v
theories/Props_FloatMcf.v
theories/RasterModel.v
theories/RasterSpec.v
theories/RasterProofs.v
theories/Props_Raster.v
theories/CertSolver.v
theories/AnyProofs.v
theories/Props_Any.v
theories/FloatMergeModel.v
theories/FloatMergeSpec.v
theories/FloatStatsProofs.v
theories/FloatMergeProofs.v
theories/FloatMergeRun.v
theories/Props_FloatMerge.v
theories/DensitySpec.v
theories/DensityProofs.v
theories/ScoreModel.v
theories/ScoreProofs.v
theories/Props_Density.v
theories/FloatCubeModel.v
theories/FloatBatchProofs.v
theories/FloatTimeProofs.v
theories/FloatCubeProofs.v
theories/Props_FloatCube.v
theories/FloatSmoothProofs.v
theories/Props_FloatSmooth.v
theories/FloatTileModel.v
theories/FloatTileSpec.v
theories/FloatTileProofs.v
theories/FloatRunModel.v
theories/FloatRunProofs.v
theories/Props_FloatRun.v
theories/InvariantSpec.v
theories/InvariantProofs.v
theories/Props_Invariant.v
theories/Props_InvariantTile.v
theories/Props_ErrorsMerge.v
theories/Props_ErrorsGraph.v
theories/Props_ErrorsData.v
theories/Props_ErrorsFloat.v
theories/OptimalSpec.v
theories/OptimalProofs.v
theories/Props_Optimal.v
theories/ShiftSpec.v
theories/ShiftProofs.v
theories/ShiftMergeProofs.v
theories/Props_Shift.v
theories/LocalSpec.v
theories/Props_Local.v
theories/TimeSeriesSpec.v
theories/TimeSeriesProofs.v
theories/Props_Series.v
theories/FloatTreeProofs.v
theories/FloatAnySpec.v
theories/FloatAnyProofs.v
theories/FloatAnyTile.v
theories/FloatAnyRun.v
theories/Props_FloatAny.v
theories/MaskedSpec.v
theories/MaskedProofs.v
theories/Props_Masked.v
theories/Props_Again.v
theories/Props_FloatTotal.v
theories/PerturbSpec.v
theories/PerturbProofs.v
theories/FieldProofs.v
theories/Props_Perturb.v
theories/FormatSpec.v
theories/FormatProofs.v
theories/FormatRunProofs.v
theories/Props_Format.v
theories/ConjSpec.v
theories/ConjProofs.v
theories/ConjMergeProofs.v
theories/ConjStatsProofs.v
theories/ConjBulkProofs.v
theories/Props_Conj.v
theories/TargetModel.v
theories/TargetSpec.v
theories/Props_Target.v
theories/ReferenceSpec.v
theories/Props_Reference.v
theories/LinkedSpec.v
theories/Props_Linked.v
theories/RegionSpec.v
theories/Props_Region.v
theories/Props_MovedRun.v
theories/ConjRunSpec.v
theories/Props_ConjRun.v
theories/ConstSpec.v
theories/Props_Const.v
theories/Props_RegionFl.v
theories/ScoreSpec.v
theories/Props_Score.v
theories/ScoreFlModel.v
theories/Props_ScoreFl.v
