-Q theories Verif
theories/AddTextModel.v
theories/AddTextProofs.v
theories/AdditiveProofs.v
theories/AngleModel.v
theories/AngleProofs.v
theories/AngleProps.v
theories/AngleSpec.v
theories/ApplyModel.v
theories/ApplyPermProofs.v
theories/ApplyProofs.v
theories/ApplyProps.v
theories/ApplySpec.v
theories/ApproxModel.v
theories/ApproxProofs.v
theories/ApproxProps.v
theories/ApproxSpec.v
theories/ApproxWitnessProofs.v
theories/ArithListProofs.v
theories/ArithModel.v
theories/ArithProofs.v
theories/ArithProps.v
theories/ArithSpec.v
theories/Array2Model.v
theories/Array2Proofs.v
theories/Array2Props.v
theories/Array2Spec.v
theories/Base.v
theories/BasisModel.v
theories/BasisProofs.v
theories/BasisProps.v
theories/BasisSnapProofs.v
theories/BasisSpec.v
theories/BasisWitnessProofs.v
theories/BinomialProofs.v
theories/BoundaryProofs.v
theories/BoundaryProps.v
theories/BroadcastProofs.v
theories/BzMoveModel.v
theories/BzMoveProofs.v
theories/BzMoveProps.v
theories/BzMoveSpec.v
theories/BzWedgeProofs.v
theories/BzWedgeProps.v
theories/CentroidProofs.v
theories/CheckIrProofs.v
theories/CheckIrWitnessProofs.v
theories/ColOrderProofs.v
theories/ColOrderProps.v
theories/CombineFaceProofs.v
theories/CombineJoinProofs.v
theories/CombineLoopProofs.v
theories/CombineModel.v
theories/CombineProofs.v
theories/CombineProps.v
theories/CombineSpec.v
theories/CombineWitnessProofs.v
theories/CompareCountModel.v
theories/CompareCountProofs.v
theories/CompareCountProps.v
theories/CompareMatchProofs.v
theories/CompareModel.v
theories/CompareMoreProofs.v
theories/CompareProofs.v
theories/CompareProps.v
theories/CompareSpec.v
theories/CompareWitnessProofs.v
theories/ConcurrentStorageProofs.v
theories/ConfigModel.v
theories/ConfigProofs.v
theories/ConfigProps.v
theories/ConfigSpec.v
theories/ContainerProofs.v
theories/CopyProofs.v
theories/CostModel.v
theories/CostProofs.v
theories/CostProps.v
theories/CostSettingsProofs.v
theories/CostSettingsProps.v
theories/CostSpec.v
theories/CubeWeightProofs.v
theories/CutAllProofs.v
theories/CutCheckProofs.v
theories/CutClipProofs.v
theories/CutEdgeProofs.v
theories/CutFlatProofs.v
theories/CutGeomProofs.v
theories/CutListProofs.v
theories/CutMainProofs.v
theories/CutModel.v
theories/CutOneProofs.v
theories/CutProps.v
theories/CutPruneProofs.v
theories/CutRunProofs.v
theories/CutSortProofs.v
theories/CutSpec.v
theories/CutWitnessProofs.v
theories/CuttingAxisProofs.v
theories/CuttingCoverProofs.v
theories/CuttingFinalProofs.v
theories/CuttingModel.v
theories/CuttingProofs.v
theories/CuttingProps.v
theories/CuttingRunProofs.v
theories/CuttingSpec.v
theories/CuttingStagesProofs.v
theories/CycleProofs.v
theories/DanglingProofs.v
theories/ExtraBudgetProofs.v
theories/ExtraBudgetProps.v
theories/ExtraBudgetSpec.v
theories/ExtraPointModel.v
theories/ExtraPointProofs.v
theories/ExtraPointProps.v
theories/FacePointModel.v
theories/FacesModel.v
theories/FacesProofs.v
theories/FacesProps.v
theories/FacesSpec.v
theories/GammaMatrixProofs.v
theories/GammaRotateProofs.v
theories/GammaTableModel.v
theories/GammaTableProofs.v
theories/GenerateProofs.v
theories/GroupingProofs.v
theories/GroupingProps.v
theories/GroupingSpec.v
theories/HalfEdgeModel.v
theories/HalfEdgeProofs.v
theories/HalfEdgeProps.v
theories/HalfEdgeSpec.v
theories/HallGroupProofs.v
theories/HallModel.v
theories/HallProps.v
theories/HallSeitzProofs.v
theories/HallSpec.v
theories/HallTextProofs.v
theories/HalvesProofs.v
theories/HullAngleProofs.v
theories/HullConeProofs.v
theories/HullFacesModel.v
theories/HullFacesProofs.v
theories/HullFacesProps.v
theories/HullFacesSpec.v
theories/HullModel.v
theories/HullPolygonProofs.v
theories/HullProofs.v
theories/HullProps.v
theories/HullSpec.v
theories/IndexProps.v
theories/InterpolateModel.v
theories/InterpolateProofs.v
theories/InterpolateProps.v
theories/InterpolateSpec.v
theories/IsometryModel.v
theories/IsometryProofs.v
theories/IsometrySpec.v
theories/LapjvExactProofs.v
theories/LapjvModel.v
theories/LapjvProofs.v
theories/LapjvProps.v
theories/LatticeDualProofs.v
theories/LatticeModel.v
theories/LatticeProps.v
theories/LatticeSpec.v
theories/LatticeUseProofs.v
theories/LatticeVectorProofs.v
theories/LatticeWitnessProofs.v
theories/LayersConnectProofs.v
theories/LayersGeomProofs.v
theories/LayersMeetSpec.v
theories/LayersModel.v
theories/LayersProofs.v
theories/LayersProps.v
theories/LayersSpec.v
theories/LayersVertexProofs.v
theories/LayersWitnessProofs.v
theories/LinSubModel.v
theories/LinSubProofs.v
theories/LinSubSpec.v
theories/LinalgModel.v
theories/LinalgProofs.v
theories/LinalgProps.v
theories/LinalgSpec.v
theories/LinearProofs.v
theories/ListUtilProofs.v
theories/LvecModel.v
theories/LvecProofs.v
theories/LvecProps.v
theories/LvecSpec.v
theories/LvecWitnessProofs.v
theories/MatModel.v
theories/MatProofs.v
theories/MatSmallProofs.v
theories/MatSmallProps.v
theories/MatSpec.v
theories/MatrixProps.v
theories/MeasureProofs.v
theories/MotionModel.v
theories/MotionProofs.v
theories/MotionSpec.v
theories/MotionTextModel.v
theories/MotionTextProofs.v
theories/MotionTextProps.v
theories/MotionTextSpec.v
theories/MoveEndProofs.v
theories/MoveIntoProofs.v
theories/MoveLoopProofs.v
theories/MoveProofs.v
theories/MoveStuckProofs.v
theories/MoveZoneModel.v
theories/MoveZoneProofs.v
theories/MoveZoneProps.v
theories/MoveZoneSpec.v
theories/MunkresModel.v
theories/MunkresPathProofs.v
theories/MunkresProofs.v
theories/MunkresProps.v
theories/MunkresSpec.v
theories/NeighbourModel.v
theories/NeighbourProofs.v
theories/NestBuildModel.v
theories/NestBuildProofs.v
theories/NestBuildProps.v
theories/NestBuildSpec.v
theories/NestBuildWitnessProofs.v
theories/NestInsideProofs.v
theories/NestInsideProps.v
theories/NestInsideSpec.v
theories/NestLimitProofs.v
theories/NestProofs.v
theories/NestSizeProofs.v
theories/NestSizeProps.v
theories/NestSizeSpec.v
theories/OrientModel.v
theories/OrientProofs.v
theories/OrientProps.v
theories/OrientSpec.v
theories/PermTableModel.v
theories/PermTableProofs.v
theories/PermTableSpec.v
theories/PermuteProofs.v
theories/PerpendicularModel.v
theories/PerpendicularProofs.v
theories/PerpendicularProps.v
theories/PerpendicularSpec.v
theories/PointgroupModel.v
theories/PointgroupNoneProofs.v
theories/PointgroupProofs.v
theories/PointgroupProps.v
theories/PointgroupSpec.v
theories/PointgroupTabulatedProofs.v
theories/PrimitiveModel.v
theories/PrimitiveProofs.v
theories/PrimitiveProps.v
theories/PrimitiveSpec.v
theories/PruneModel.v
theories/PruneProofs.v
theories/PruneProps.v
theories/PruneSpec.v
theories/QPoint.v
theories/QueryProofs.v
theories/ReassembleProofs.v
theories/RotateModel.v
theories/RotateProofs.v
theories/RotateProps.v
theories/RotateSpec.v
theories/RowErrorProofs.v
theories/RowErrorProps.v
theories/RowProofs.v
theories/SameSetProofs.v
theories/SmpModel.v
theories/SmpProofs.v
theories/SmpProps.v
theories/SmpSpec.v
theories/SnapModel.v
theories/SnapProofs.v
theories/SnapProps.v
theories/SnapSpec.v
theories/SnapVectorProofs.v
theories/SnapWitnessProofs.v
theories/SortStatusModel.v
theories/SortStatusProofs.v
theories/SortStatusSpec.v
theories/SortingProps.v
theories/SpgModel.v
theories/SpgProofs.v
theories/SpgProps.v
theories/SpgSpec.v
theories/SpgTable.v
theories/StorageModel.v
theories/StorageProofs.v
theories/StorageProps.v
theories/StorageSpec.v
theories/SubItModel.v
theories/SubItProofs.v
theories/SubItSpec.v
theories/SymmetryModel.v
theories/SymmetryProofs.v
theories/SymmetryProps.v
theories/SymmetrySpec.v
theories/TetFacesProofs.v
theories/TetWeightProofs.v
theories/TilesProps.v
theories/TimeReversalGroupProofs.v
theories/TimeReversalModel.v
theories/TimeReversalProofs.v
theories/TimeReversalProps.v
theories/TimeReversalSpec.v
theories/TimeReversalTableProofs.v
theories/TimeReversalTabulatedProofs.v
theories/TrellisModel.v
theories/TrellisProofs.v
theories/TrellisProps.v
theories/TrellisSpec.v
theories/TriclinicModel.v
theories/TriclinicProofs.v
theories/UtilModel.v
theories/UtilProps.v
theories/UtilSpec.v
theories/VertexMapFinalProofs.v
theories/VertexMapMergeProofs.v
theories/VertexMapModel.v
theories/VertexMapProofs.v
theories/VertexMapProps.v
theories/VertexMapSpec.v
theories/ViewProofs.v
theories/VolumeModel.v
theories/VolumeProofs.v
theories/VolumeProps.v
theories/VolumeSpec.v
theories/WedgeAxisProofs.v
theories/WedgeConeProofs.v
theories/WedgeFullModel.v
theories/WedgeFullProofs.v
theories/WedgeFullProps.v
theories/WedgeHullProofs.v
theories/WedgeHullProps.v
theories/WedgeHullSpec.v
theories/WedgeHullWitnessProofs.v
theories/WedgeModel.v
theories/WedgeNormalProofs.v
theories/WedgeProps.v
theories/WedgeSearchProofs.v
theories/WedgeSpec.v
theories/WedgeWitnessProofs.v
theories/WeightsModel.v
theories/WeightsProps.v
theories/WeightsSpec.v
theories/WorkerModel.v
theories/WorkerProofs.v
theories/ZoneBoxProofs.v
theories/ZoneFaceProofs.v
theories/ZoneGrowProofs.v
theories/ZoneModel.v
theories/ZoneObtuseProofs.v
theories/ZoneProofs.v
theories/ZoneProps.v
theories/ZoneSpec.v
theories/ZoneWitnessProofs.v
