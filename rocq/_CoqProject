-Q theories Verif
theories/AStarModel.v
theories/AStarProofs.v
theories/AStarProps.v
theories/AStarSpec.v
theories/AggregatorMatrix.v
theories/AggregatorModel.v
theories/AggregatorProofs.v
theories/AggregatorProps.v
theories/AggregatorRoutes.v
theories/AggregatorSpec.v
theories/AirPlanAnswer.v
theories/AirPlanBuild.v
theories/AirPlanEnv.v
theories/AirPlanModel.v
theories/AirPlanProofs.v
theories/AirPlanProps.v
theories/AirPlanSpec.v
theories/AirPlanUnique.v
theories/AlgebraModel.v
theories/AlgebraProofs.v
theories/AlgebraProps.v
theories/AlgebraSpec.v
theories/AssignErrorsProps.v
theories/AssignModel.v
theories/AssignProofs.v
theories/AssignProps.v
theories/AssignServiceModel.v
theories/AssignServiceProofs.v
theories/AssignServiceProps.v
theories/AssignServiceSpec.v
theories/AssignSpec.v
theories/Base.v
theories/BatchInv.v
theories/BatchModel.v
theories/BatchProofs.v
theories/BatchProps.v
theories/BatchRun.v
theories/BatchSpec.v
theories/BatchStep.v
theories/BlockadeGeom.v
theories/BlockadeModel.v
theories/BlockadeProps.v
theories/BlockadeSpec.v
theories/BridgeMgrModel.v
theories/BridgeMgrProps.v
theories/BridgeMgrSpec.v
theories/BridgeModel.v
theories/BridgeProps.v
theories/BridgeSpec.v
theories/BuilderInv.v
theories/BuilderModel.v
theories/BuilderProofs.v
theories/BuilderProps.v
theories/BuilderSpec.v
theories/CallbackEndProps.v
theories/CallbackModel.v
theories/CallbackProofs.v
theories/CallbackProps.v
theories/CallbackSpec.v
theories/ClientModel.v
theories/ClientProps.v
theories/ClientSpec.v
theories/ClockCalendar.v
theories/ClockEndProps.v
theories/ClockModel.v
theories/ClockProofs.v
theories/ClockProps.v
theories/ClockSpec.v
theories/ConfigModel.v
theories/ConfigProps.v
theories/ConfigSpec.v
theories/CoordModel.v
theories/CoordProofs.v
theories/CoordProps.v
theories/CoordSpec.v
theories/CordonModel.v
theories/CordonProps.v
theories/CordonSpec.v
theories/DbLogModel.v
theories/DbLogProofs.v
theories/DbLogProps.v
theories/DbLogSpec.v
theories/Decimal10.v
theories/DiagramModel.v
theories/DiagramProofs.v
theories/DiagramProps.v
theories/DiagramSpec.v
theories/DubinsAbout.v
theories/DubinsChoice.v
theories/DubinsModel.v
theories/DubinsProofs.v
theories/DubinsProps.v
theories/DubinsShort.v
theories/DubinsSpec.v
theories/DubinsTangent.v
theories/DubinsThree.v
theories/DubinsTurns.v
theories/DynModel.v
theories/DynProps.v
theories/DynSpec.v
theories/EscortGeom.v
theories/EscortModel.v
theories/EscortProps.v
theories/EscortSpec.v
theories/FlatEarthModel.v
theories/FlatEarthProps.v
theories/FootprintModel.v
theories/FootprintProps.v
theories/FormulaModel.v
theories/FormulaProofs.v
theories/FormulaProps.v
theories/FormulaSpec.v
theories/Latest.v
theories/LeashModel.v
theories/LeashProps.v
theories/LineImpactModel.v
theories/LineImpactProps.v
theories/LineOffsetModel.v
theories/LineOffsetProofs.v
theories/LineOffsetProps.v
theories/LineOffsetSpec.v
theories/LineOffsetWayProps.v
theories/LinePlanEndProps.v
theories/LinePlanGeom.v
theories/LinePlanModel.v
theories/LinePlanProofs.v
theories/LinePlanProps.v
theories/LinePlanSpec.v
theories/LineStareModel.v
theories/LineStareProofs.v
theories/LineStareProps.v
theories/LineStareSpec.v
theories/ListSplit.v
theories/LogManagerModel.v
theories/LogManagerProofs.v
theories/LogManagerProps.v
theories/LogManagerRows.v
theories/LogManagerSpec.v
theories/MainModel.v
theories/MainProps.v
theories/MainSpec.v
theories/MsgModel.v
theories/MsgProofs.v
theories/MsgProps.v
theories/MsgSpec.v
theories/NetModel.v
theories/NetProofs.v
theories/NetProps.v
theories/NetSpec.v
theories/NextPerm.v
theories/OsmEgressModel.v
theories/OsmEgressProps.v
theories/OsmMapBuild.v
theories/OsmMapFacts.v
theories/OsmMapModel.v
theories/OsmMapProofs.v
theories/OsmMapProps.v
theories/OsmMapSpec.v
theories/OsmNearModel.v
theories/OsmNearProps.v
theories/OsmPlanModel.v
theories/OsmPlanProofs.v
theories/OsmPlanProps.v
theories/OsmPlanSpec.v
theories/OsmRoadModel.v
theories/OsmRoadProofs.v
theories/OsmRoadProps.v
theories/OsmWayProofs.v
theories/OsmWayProps.v
theories/OverwatchModel.v
theories/OverwatchProps.v
theories/OverwatchSpec.v
theories/PermuteCount.v
theories/PermuteModel.v
theories/PermuteProofs.v
theories/PermuteProps.v
theories/PermuteSel.v
theories/PermuteSpec.v
theories/PiBounds.v
theories/PipelineProps.v
theories/PipelineSpec.v
theories/RasterModel.v
theories/RasterProofs.v
theories/RasterProps.v
theories/RasterSpec.v
theories/RegionModel.v
theories/RegionProps.v
theories/RegionSpec.v
theories/RelayModel.v
theories/RelayProps.v
theories/RelaySpec.v
theories/RendezvousModel.v
theories/RendezvousProofs.v
theories/RendezvousProps.v
theories/RendezvousSpec.v
theories/RendezvousTurns.v
theories/RouteExtGeom.v
theories/RouteExtModel.v
theories/RouteExtPathProps.v
theories/RouteExtProps.v
theories/RouteExtSpec.v
theories/RouteExtWay.v
theories/RouteVisModel.v
theories/RouteVisProps.v
theories/RouteVisSpec.v
theories/Run.v
theories/RvRouteModel.v
theories/RvRouteProps.v
theories/RvRouteSpec.v
theories/RvSpeedModel.v
theories/RvSpeedProps.v
theories/RvSpeedSpec.v
theories/RvTimeModel.v
theories/RvTimeProps.v
theories/RvTimeSpec.v
theories/SearchAnglesProps.v
theories/SearchOptionsModel.v
theories/SearchOptionsProps.v
theories/SearchOptionsSpec.v
theories/SearchPointProps.v
theories/SectorModel.v
theories/SectorProofs.v
theories/SectorProps.v
theories/SectorSpec.v
theories/SegModel.v
theories/SegProps.v
theories/SegSpec.v
theories/SendMsgModel.v
theories/SendMsgProps.v
theories/SendMsgSpec.v
theories/SensorModel.v
theories/SensorProofs.v
theories/SensorProps.v
theories/SensorSpec.v
theories/SensorSteeringModel.v
theories/SensorSteeringProofs.v
theories/SensorSteeringProps.v
theories/SensorSteeringSpec.v
theories/SerialBridgeModel.v
theories/SerialBridgeProps.v
theories/SerialBridgeSpec.v
theories/SerialModel.v
theories/SerialProofs.v
theories/SerialProps.v
theories/SerialReqModel.v
theories/SerialReqProps.v
theories/SerialReqSpec.v
theories/SerialSpec.v
theories/ServiceMgrModel.v
theories/ServiceMgrProofs.v
theories/ServiceMgrProps.v
theories/ServiceMgrSpec.v
theories/SimplePlanModel.v
theories/SimplePlanProps.v
theories/SimplePlanSpec.v
theories/SpiralModel.v
theories/SpiralProofs.v
theories/SpiralProps.v
theories/SpiralSpec.v
theories/StareMapModel.v
theories/StareMapProps.v
theories/StareMapSpec.v
theories/StatusReportModel.v
theories/StatusReportProps.v
theories/StatusReportSpec.v
theories/SteeringCourseModel.v
theories/SteeringCourseProps.v
theories/SteeringModel.v
theories/SteeringProofs.v
theories/SteeringProps.v
theories/SteeringSpec.v
theories/TaskBaseImpl.v
theories/TaskBaseInv.v
theories/TaskBaseModel.v
theories/TaskBaseNotice.v
theories/TaskBaseOpt.v
theories/TaskBaseOptions.v
theories/TaskBaseResume.v
theories/TaskBaseSpec.v
theories/TaskBaseStep.v
theories/TaskBaseWps.v
theories/TaskImplProps.v
theories/TaskMgrModel.v
theories/TaskMgrProofs.v
theories/TaskMgrProps.v
theories/TaskMgrSpec.v
theories/TaskNoticeProps.v
theories/TaskOptionProps.v
theories/TaskResumeProps.v
theories/TcpLinkModel.v
theories/TcpLinkProps.v
theories/TcpLinkSpec.v
theories/TcpPipeModel.v
theories/TcpPipeProps.v
theories/TcpPipeSpec.v
theories/TimerDue.v
theories/TimerModel.v
theories/TimerProofs.v
theories/TimerProps.v
theories/TimerSpec.v
theories/TrackerLoopProps.v
theories/TrackerModel.v
theories/TrackerProps.v
theories/TrackerSpec.v
theories/TrackerStep.v
theories/UnescapeModel.v
theories/UnescapeProps.v
theories/UnescapeSpec.v
theories/ValidatorModel.v
theories/ValidatorProofs.v
theories/ValidatorProps.v
theories/ValidatorSpec.v
theories/VisCaseProps.v
theories/VisModel.v
theories/VisProps.v
theories/VisSpec.v
theories/WayHeading.v
theories/WayPointsModel.v
theories/WayPointsProofs.v
theories/WayPointsProps.v
theories/WayPointsSpec.v
theories/WaypointInv.v
theories/WaypointModel.v
theories/WaypointProofs.v
theories/WaypointProps.v
theories/WaypointServe.v
theories/WaypointSpec.v
theories/ZMap.v
theories/ZyreModel.v
theories/ZyreProps.v
theories/ZyreSpec.v
