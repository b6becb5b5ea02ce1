-Q theories Verif
theories/Base.v
theories/BaseFacts.v
theories/Utils.v
theories/UtilsSpec.v
theories/UtilsProofs.v
theories/UtilsProps.v
theories/Boxes.v
theories/BoxesSpec.v
theories/BoxesProofs.v
theories/BoxesProps.v
theories/Overlay.v
theories/OverlaySpec.v
theories/OverlayProofs.v
theories/OverlayProps.v
theories/PyText.v
theories/Reset.v
theories/ResetSpec.v
theories/ResetProofs.v
theories/ResetProps.v
theories/Dict.v
theories/Scan.v
theories/ScanSpec.v
theories/ScanProofs.v
theories/TransProofs.v
theories/ScanMain.v
theories/ScanProps.v
theories/Round.v
theories/RoundProofs.v
theories/Step.v
theories/StepSpec.v
theories/StepProofs.v
theories/Toy.v
theories/StepProps.v
theories/Scheduler.v
theories/SchedulerSpec.v
theories/SchedulerProofs.v
theories/SchedulerProps.v
theories/Sim.v
theories/SimSpec.v
theories/SimProofs.v
theories/SimMain.v
theories/SimProps.v
theories/Parser.v
theories/PySem.v
theories/ParserSpec.v
theories/ParserProofs.v
theories/ParserMain.v
theories/ParserToy.v
theories/ParserToyFacts.v
theories/ParserProps.v
theories/Guard.v
theories/GuardSpec.v
theories/GuardProofs.v
theories/GuardProps.v
theories/Angle.v
theories/AngleSpec.v
theories/AngleProofs.v
theories/AngleProps.v
theories/Lane.v
theories/LaneSpec.v
theories/LaneProofs.v
theories/LaneProps.v
theories/Polygon.v
theories/PolygonSpec.v
theories/PolygonProofs.v
theories/PolygonProps.v
theories/Sensor.v
theories/SensorSpec.v
theories/SensorProofs.v
theories/SensorProps.v
theories/Tree.v
theories/TreeSpec.v
theories/TreeProofs.v
theories/DumpProofs.v
theories/FirstProofs.v
theories/TreeProps.v
theories/Contains.v
theories/ContainsSpec.v
theories/ContainsProofs.v
theories/ContainsMain.v
theories/ContainsTop.v
theories/ContainsProps.v
theories/Cache.v
theories/CacheSpec.v
theories/CacheProofs.v
theories/CacheSim.v
theories/CacheDiff.v
theories/CacheProps.v
theories/Partitioned.v
theories/PartitionedSpec.v
theories/PartitionedProofs.v
theories/PartitionedProps.v
theories/Dryvr.v
theories/DryvrSpec.v
theories/DryvrProofs.v
theories/DryvrProps.v
theories/MixMono.v
theories/MixMonoSpec.v
theories/MixMonoProofs.v
theories/MixMonoProps.v
theories/Star.v
theories/StarSpec.v
theories/StarProofs.v
theories/StarMain.v
theories/StarTube.v
theories/StarProps.v
theories/LaneMap3d.v
theories/LaneMap3dSpec.v
theories/LaneMap3dProofs.v
theories/LaneMap3dProps.v
theories/Scenario.v
theories/ScenarioSpec.v
theories/ScenarioProofs.v
theories/ScenarioMain.v
theories/ScenarioProps.v
theories/FixedPoints.v
theories/FixedPointsSpec.v
theories/FixedPointsProofs.v
theories/FixedPointsMain.v
theories/FixedPointsProps.v
theories/Piecewise.v
theories/PiecewiseSpec.v
theories/PiecewiseProofs.v
theories/PiecewiseMain.v
theories/PiecewiseProps.v
theories/TimeGrid.v
theories/TimeGridSpec.v
theories/TimeGridProofs.v
theories/TimeGridProps.v
theories/CoverSpec.v
theories/CoverProofs.v
theories/CoverToy.v
theories/CoverProps.v
theories/Angular.v
theories/AngularSpec.v
theories/AngularProofs.v
theories/AngularRect.v
theories/AngularProj.v
theories/AngularProps.v
theories/ParseArray.v
theories/ParseArraySpec.v
theories/ParseArrayProofs.v
theories/ParseArrayProps.v
theories/Handlers.v
theories/HandlersSpec.v
theories/HandlersProofs.v
theories/HandlersProps.v
theories/Intersection.v
theories/IntersectionSpec.v
theories/IntersectionProofs.v
theories/IntersectionProps.v
theories/TableMap.v
theories/TableMapSpec.v
theories/TableMapProofs.v
theories/TableMapProps.v
theories/Car.v
theories/CarSpec.v
theories/CarProofs.v
theories/CarProps.v
theories/Lane3d.v
theories/Lane3dSpec.v
theories/Lane3dProofs.v
theories/Lane3dStraight.v
theories/Lane3dProps.v
theories/Lane3dCircular.v
theories/Lane3dArcProps.v
theories/Lane3dBendProps.v
theories/Lane3dPathProps.v
theories/Map3d.v
theories/Map3dSpec.v
theories/Map3dProofs.v
theories/Map3dProps.v
theories/Waypoint.v
theories/WaypointSpec.v
theories/WaypointProofs.v
theories/WaypointProps.v
theories/StarDiam.v
theories/StarDiamSpec.v
theories/StarDiamProofs.v
theories/StarDiamProps.v
theories/SplitSensor.v
theories/SplitSensorSpec.v
theories/SplitSensorProofs.v
theories/SplitSensorProps.v
theories/SimpleEnv.v
theories/SimpleEnvSpec.v
theories/SimpleEnvProofs.v
theories/SimpleEnvProps.v
theories/SimpleSim.v
theories/SimpleSimSpec.v
theories/SimpleSimProofs.v
theories/SimpleSimProps.v
theories/StarReset.v
theories/StarResetSpec.v
theories/StarResetProofs.v
theories/StarResetProps.v
theories/StarGuard.v
theories/StarGuardSpec.v
theories/StarGuardProofs.v
theories/StarGuardWorld.v
theories/StarGuardSense.v
theories/StarGuardProps.v
theories/Runs.v
theories/RunsSpec.v
theories/RunsProofs.v
theories/RunsMain.v
theories/RunsProps.v
theories/Plot.v
theories/PlotSpec.v
theories/PlotGeom.v
theories/PlotProofs.v
theories/PlotMain.v
theories/PlotBand.v
theories/PlotGroup.v
theories/PlotProps.v
theories/PlotSlice.v
theories/PlotSliceProps.v
theories/PlotAnime.v
theories/PlotAnimeSpec.v
theories/PlotAnimeProofs.v
theories/PlotAnimeMain.v
theories/PlotAnimeFrames.v
theories/PlotAnimeProps.v
theories/DryvrGlobal.v
theories/DryvrGlobalSpec.v
theories/DryvrGlobalProofs.v
theories/DryvrGlobalMain.v
theories/DryvrGlobalProps.v
theories/MixMonoCont.v
theories/MixMonoContSpec.v
theories/MixMonoContProofs.v
theories/MixMonoContMain.v
theories/MixMonoContProps.v
theories/Unparse.v
theories/UnparseSpec.v
theories/UnparseProofs.v
theories/UnparseRound.v
theories/UnparseMain.v
theories/UnparseProps.v
theories/StarPlot.v
theories/StarPlotSpec.v
theories/StarPlotProofs.v
theories/StarPlotMain.v
theories/StarPlotProps.v
theories/Spread.v
theories/SpreadSpec.v
theories/SpreadProofs.v
theories/SpreadMain.v
theories/SpreadTube.v
theories/SpreadProps.v
theories/StarSample.v
theories/StarSampleSpec.v
theories/StarSampleProofs.v
theories/StarSampleProps.v
theories/StarStep.v
theories/StarStepSpec.v
theories/StarStepProofs.v
theories/StarStepProps.v
theories/StarLane.v
theories/StarLaneSpec.v
theories/StarLaneProofs.v
theories/StarLaneProps.v
theories/Ray.v
theories/RaySpec.v
theories/RayProofs.v
theories/RayProps.v
theories/FixedSensor.v
theories/FixedSensorProofs.v
theories/FixedSensorProps.v
theories/LaneQuery.v
theories/LaneQuerySpec.v
theories/LaneQueryProps.v
theories/LaneConfig.v
theories/LaneConfigProps.v
theories/ExampleAgents.v
theories/ExampleAgentsSpec.v
theories/ExampleAgentsProofs.v
theories/ExampleAgentsProps.v
theories/TreeGraph.v
theories/TreeGraphSpec.v
theories/TreeGraphProofs.v
theories/TreeGraphProps.v
theories/Bench.v
theories/BenchSpec.v
theories/BenchProps.v
theories/SeveralProps.v
theories/AngularOneProps.v
theories/PlotOutlineProps.v
theories/CacheInits.v
theories/CacheInitsProps.v
theories/StarCenter.v
theories/StarCenterProps.v
theories/PlotTrailProps.v
theories/StarUnsat.v
theories/StarUnsatProps.v
theories/Confidence.v
theories/ConfidenceProps.v
theories/LanePointProps.v
theories/Lane3dOnProps.v
theories/RunsCallProps.v
theories/StarCache.v
theories/StarCacheProps.v
theories/DryvrSepProps.v
