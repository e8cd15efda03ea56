-Q theories Verif
theories/Base/Outcome.v
theories/Base/Num.v
theories/Base/F64Facts.v
theories/Model/MathUtils.v
theories/Model/Geometry.v
theories/Model/Grid.v
theories/Spec/GeometrySpec.v
theories/Proofs/ListFacts.v
theories/Proofs/BresenhamProofs.v
theories/Proofs/GridProofs.v
theories/Proofs/GridNumProofs.v
theories/Spec/GridSpec.v
theories/Proofs/RasterProofs.v
theories/Props/GeometryProps.v
theories/Model/PlainMap.v
theories/Spec/MapSpec.v
theories/Proofs/GrowthProofs.v
theories/Proofs/PlainMapProofs.v
theories/Props/PlainMapProps.v
theories/Model/LazyMap.v
theories/Spec/ManyMapsSpec.v
theories/Proofs/LazyMapProofs.v
theories/Props/LazyMapProps.v
theories/Base/XReal.v
theories/Model/Serialization.v
theories/Model/Cells.v
theories/Model/MapState.v
theories/Spec/CellSpec.v
theories/Proofs/StateProofs.v
theories/Props/StateProps.v
theories/Proofs/TbmProofs.v
theories/Proofs/CellProofs.v
theories/Props/CellProps.v
theories/Model/Sensor.v
theories/Model/ScanAdder.v
theories/Spec/ScanSpec.v
theories/Proofs/ScanAdderProofs.v
theories/Props/ScanProps.v
theories/Base/OrdLaws.v
theories/Model/Matchers.v
theories/Spec/MatchSpec.v
theories/Proofs/MatcherProofs.v
theories/Proofs/BruteForceProofs.v
theories/Proofs/ClimbProofs.v
theories/Proofs/FixedHcProofs.v
theories/Spec/ClimbFloatSpec.v
theories/Proofs/ClimbFloatProofs.v
theories/Props/MatcherProps.v
theories/Model/Spe.v
theories/Spec/SpeSpec.v
theories/Proofs/SpeProofs.v
theories/Props/SpeProps.v
theories/Proofs/CompareProofs.v
theories/Spec/RectSpec.v
theories/Proofs/RectProofs.v
theories/Props/RectProps.v
theories/Model/Trig.v
theories/Model/LaserObserver.v
theories/Model/Histogram.v
theories/Model/HcAlign.v
theories/Spec/LaserSpec.v
theories/Spec/DirectionSpec.v
theories/Proofs/TrigProofs.v
theories/Proofs/HistProofs.v
theories/Proofs/AlignProofs.v
theories/Props/TrigProps.v
theories/Model/World.v
theories/Model/ParticleFilter.v
theories/Model/Gmapping.v
theories/Model/RandomVars.v
theories/Spec/WorldSpec.v
theories/Spec/ParticleSpec.v
theories/Proofs/ParticleProofs.v
theories/Proofs/WorldProofs.v
theories/Props/ParticleProps.v
theories/Base/EReal.v
theories/Model/Pyramid.v
theories/Spec/PyramidSpec.v
theories/Proofs/PyramidProofs.v
theories/Proofs/PyramidShape.v
theories/Proofs/PyramidRun.v
theories/Proofs/PyramidBound.v
theories/Props/PyramidProps.v
theories/Model/M3Engine.v
theories/Model/M3Score.v
theories/Spec/M3Spec.v
theories/Proofs/M3Proofs.v
theories/Props/M3Props.v
theories/Spec/M3ScoreSpec.v
theories/Proofs/M3ScoreProofs.v
theories/Props/M3ScoreProps.v
theories/Model/Properties.v
theories/Model/BagTopic.v
theories/Spec/PropertiesSpec.v
theories/Spec/BagSpec.v
theories/Proofs/PropertiesProofs.v
theories/Proofs/BagProofs.v
theories/Props/PropertiesProps.v
theories/Props/BagProps.v
theories/Model/Render.v
theories/Model/GmappingOope.v
theories/Model/Config.v
theories/Spec/RenderSpec.v
theories/Spec/ConfigSpec.v
theories/Spec/OopeSpec.v
theories/Proofs/RenderProofs.v
theories/Proofs/OopeProofs.v
theories/Props/RenderProps.v
theories/Props/OopeProps.v
theories/Props/ConfigProps.v
theories/Model/AreaEstimator.v
theories/Spec/AreaSpec.v
theories/Proofs/AreaProofs.v
theories/Proofs/AreaMain.v
theories/Proofs/AreaRange.v
theories/Props/AreaProps.v
theories/Model/DriftDetector.v
theories/Spec/DriftSpec.v
theories/Proofs/DriftProofs.v
theories/Props/DriftProps.v
theories/Proofs/TbmFloatProofs.v
theories/Proofs/MeanFloatProofs.v
theories/Model/RosNode.v
theories/Model/BagRunner.v
theories/Spec/RosSpec.v
theories/Proofs/RosProofs.v
theories/Props/RosProps.v
theories/Spec/TravelSpec.v
theories/Proofs/ResampleProofs.v
theories/Props/ResampleProps.v
theories/Spec/ParticleScanSpec.v
theories/Spec/WaySpec.v
theories/Proofs/ParticleScanProofs.v
theories/Proofs/NormFloatProofs.v
theories/Proofs/WayProofs.v
theories/Proofs/WayFloatProofs.v
theories/Proofs/ParticleIdleProofs.v
theories/Props/ParticleScanProps.v
theories/Model/DataGen.v
theories/Spec/DataGenSpec.v
theories/Spec/LaserScanGenSpec.v
theories/Proofs/DataGenProofs.v
theories/Proofs/CecumProofs.v
theories/Proofs/LaserScanGenProofs.v
theories/Props/DataGenProps.v
theories/Model/AsyncPublisher.v
theories/Spec/AsyncSpec.v
theories/Proofs/AsyncProofs.v
theories/Props/AsyncProps.v
theories/Spec/EmptyScanSpec.v
theories/Proofs/EmptyScanProofs.v
theories/Props/EmptyScanProps.v
theories/Spec/LostSpec.v
theories/Proofs/LostProofs.v
theories/Props/LostProps.v
theories/Model/MapFile.v
theories/Spec/MapFileSpec.v
theories/Proofs/MapFileProofs.v
theories/Props/MapFileProps.v
theories/Model/SelfCheck.v
theories/Model/ScanText.v
theories/Spec/SelfCheckSpec.v
theories/Spec/ScanTextSpec.v
theories/Proofs/SelfCheckProofs.v
theories/Proofs/ScanTextProofs.v
theories/Props/SelfCheckProps.v
theories/Props/ScanTextProps.v
theories/Model/ConsoleView.v
theories/Model/RosTools.v
theories/Model/SearchSpace.v
theories/Spec/ConsoleViewSpec.v
theories/Spec/RosToolsSpec.v
theories/Spec/SearchSpaceSpec.v
theories/Props/ConsoleViewProps.v
theories/Props/RosToolsProps.v
theories/Props/SearchSpaceProps.v
theories/Model/LaserFloat.v
theories/Spec/LaserFloatSpec.v
theories/Proofs/LaserFloatProofs.v
theories/Props/LaserFloatProps.v
theories/Spec/ScanPointSpec.v
theories/Props/ScanPointProps.v
theories/Model/WholeSlam.v
theories/Spec/WholeSpec.v
theories/Proofs/WholeProofs.v
theories/Proofs/WholeObs.v
theories/Proofs/WholeMaps.v
theories/Proofs/WholeRun.v
theories/Props/WholeProps.v
theories/Spec/WholeMapSpec.v
theories/Proofs/WholeExact.v
theories/Props/WholeMapProps.v
theories/Model/PoseGraph.v
theories/Spec/PoseGraphSpec.v
theories/Props/PoseGraphProps.v
theories/Spec/GmMapSpec.v
theories/Proofs/GmMapProofs.v
theories/Props/GmMapProps.v
theories/Props/AlignProps.v
theories/Spec/LimitSpec.v
theories/Proofs/LimitProofs.v
theories/Props/LimitProps.v
theories/Model/WholeMatcher.v
theories/Spec/ShiftSpec.v
theories/Proofs/ShiftProofs.v
theories/Proofs/ShiftMatch.v
theories/Props/ShiftProps.v
theories/Model/Impact.v
theories/Spec/ScoreSpec.v
theories/Proofs/ScoreProofs.v
theories/Proofs/ScoreRuns.v
theories/Props/ScoreProps.v
theories/Spec/BruteFloatSpec.v
theories/Proofs/BruteFloatProofs.v
theories/Props/BruteFloatProps.v
theories/Proofs/PoseFloatProofs.v
theories/Props/PoseFloatProps.v
theories/Model/WatchedRun.v
theories/Spec/WatchedSpec.v
theories/Proofs/WatchedProofs.v
theories/Props/WatchedProps.v
theories/Proofs/WholeRescalable.v
theories/Props/WholeRescalableProps.v
theories/Model/MapView.v
theories/Spec/BorderSpec.v
theories/Proofs/BorderProofs.v
theories/Props/BorderProps.v
theories/Spec/EstimateSpec.v
theories/Proofs/EstimateFloatProofs.v
theories/Props/EstimateFloatProps.v
theories/Model/Helpers.v
theories/Model/NoAction.v
theories/Spec/HelperSpec.v
theories/Spec/TrackSpec.v
theories/Proofs/NoActionProofs.v
theories/Props/HelperProps.v
theories/Props/NoActionProps.v
theories/Proofs/NoActionFilterProofs.v
theories/Props/NoActionFilterProps.v
theories/Proofs/EvenWeightsProofs.v
theories/Spec/FailureSpec.v
theories/Proofs/FilterTotalProofs.v
theories/Proofs/FilterBlameProofs.v
theories/Proofs/NoActionFilterFloatProofs.v
theories/Props/NoActionFilterFloatProps.v
theories/Props/FilterTotalProps.v
