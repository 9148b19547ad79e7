-Q theories Verif
theories/Base.v
theories/NdArray.v
theories/NdArrayProofs.v
theories/DeltaModel.v
theories/DeltaSpec.v
theories/DeltaProofs.v
theories/DeltaProperties.v
theories/TilingModel.v
theories/TilingSpec.v
theories/TilingProofs.v
theories/TilingProperties.v
theories/ResultLib.v
theories/ListLib.v
theories/HungarianModel.v
theories/HungarianSpec.v
theories/HungarianProofs.v
theories/HungarianProperties.v
theories/MatcherModel.v
theories/MatcherSpec.v
theories/MatcherProofs.v
theories/ScoreFirstProofs.v
theories/MatcherCacheModel.v
theories/MatcherCacheSpec.v
theories/MatcherCacheProofs.v
theories/MatcherProperties.v
theories/MotModel.v
theories/MotSpec.v
theories/MotMapProofs.v
theories/MotProofs.v
theories/MotFrameProofs.v
theories/MotSeqProofs.v
theories/MotProperties.v
theories/MergeModel.v
theories/MergeSpec.v
theories/MergeProofs.v
theories/MergeProperties.v
theories/DetModel.v
theories/DetSpec.v
theories/DetProofs.v
theories/DetProperties.v
theories/ApModel.v
theories/ApSpec.v
theories/ApProofs.v
theories/ApProperties.v
theories/CutoffModel.v
theories/CutoffSpec.v
theories/CutoffProofs.v
theories/CutoffProperties.v
theories/AngleModel.v
theories/AngleSpec.v
theories/AngleProofs.v
theories/AngleProperties.v
theories/SegModel.v
theories/SegSpec.v
theories/SegProofs.v
theories/SegProperties.v
theories/BreakdownModel.v
theories/BreakdownSpec.v
theories/BreakdownProofs.v
theories/BreakdownNames.v
theories/BreakdownSubsets.v
theories/BreakdownProperties.v
theories/MotionModel.v
theories/MotionApSpec.v
theories/MotionApProofs.v
theories/MotionSpec.v
theories/MotionProofs.v
theories/MotionStatsProofs.v
theories/MotionValidProofs.v
theories/MotionSubmissionModel.v
theories/MotionSubmissionSpec.v
theories/MotionSubmissionProofs.v
theories/MotionExamples.v
theories/MotionProperties.v
theories/PanopticModel.v
theories/PanopticSpec.v
theories/PanopticProofs.v
theories/PanopticProperties.v
theories/ComponentModel.v
theories/ComponentSpec.v
theories/ComponentProofs.v
theories/ComponentProperties.v
theories/MonadLib.v
theories/SimModel.v
theories/SimSpec.v
theories/SimProofs.v
theories/SimProperties.v
theories/KinematicModel.v
theories/KinematicSpec.v
theories/KinematicProofs.v
theories/KinematicProperties.v
theories/EstimatorModel.v
theories/EstimatorSpec.v
theories/EstimatorProofs.v
theories/EstimatorProperties.v
theories/MetametricModel.v
theories/MetametricSpec.v
theories/MetametricProofs.v
theories/MetametricProperties.v
theories/RangeImageModel.v
theories/RangeImageSpec.v
theories/RangeImageProofs.v
theories/RangeImageProperties.v
theories/BoxModel.v
theories/BoxSpec.v
theories/BoxProofs.v
theories/BoxProperties.v
theories/IouModel.v
theories/IouSpec.v
theories/IouProofs.v
theories/LetProofs.v
theories/IouProperties.v
theories/ExactFloatModel.v
theories/ExactFloatSpec.v
theories/ExactFloatLib.v
theories/ExactFloatProofs.v
theories/ExactFloatOpsProofs.v
theories/ExactFloatCmpProofs.v
theories/ExactFloatRoundProofs.v
theories/ExactFloatProperties.v
theories/ScenarioModel.v
theories/ScenarioSpec.v
theories/ScenarioRoadProofs.v
theories/ScenarioStateProofs.v
theories/ScenarioAgentProofs.v
theories/ScenarioProofs.v
theories/ScenarioOutcomeProofs.v
theories/ScenarioFloatProofs.v
theories/ScenarioExamples.v
theories/ScenarioProperties.v
theories/ParseModel.v
theories/ParseSpec.v
theories/ParseMapProofs.v
theories/ParseObjectProofs.v
theories/ParseMotionProofs.v
theories/ParseExamples.v
theories/ParseProperties.v
theories/EvaluatorModel.v
theories/EvaluatorSpec.v
theories/EvaluatorProofs.v
theories/EvaluatorExamples.v
theories/EvaluatorProperties.v
theories/RaterModel.v
theories/RaterSpec.v
theories/RaterPadProofs.v
theories/RaterScoreProofs.v
theories/RaterWholeProofs.v
theories/RaterExamples.v
theories/RaterProperties.v
theories/ExactTextModel.v
theories/ExactTextSpec.v
theories/ExactTextDigits.v
theories/ExactTextProofs.v
theories/ExactTextReadProofs.v
theories/ExactTextUniqueProofs.v
theories/ExactTextExamples.v
theories/ExactTextProperties.v
theories/GeomSpec.v
theories/GeomModel.v
theories/GeomSceneSpec.v
theories/GeomBase.v
theories/GeomConvex.v
theories/GeomDistProofs.v
theories/GeomMinkProofs.v
theories/GeomBoxProofs.v
theories/GeomNearestProofs.v
theories/GeomExamples.v
theories/GeomProperties.v
theories/RoadModel.v
theories/RoadSpec.v
theories/RoadProofs.v
theories/RoadLocalProofs.v
theories/RoadLoopProofs.v
theories/RoadBoxProofs.v
theories/RoadExamples.v
theories/RoadProperties.v
theories/TtcModel.v
theories/TtcSpec.v
theories/TtcProofs.v
theories/TtcExamples.v
theories/TtcProperties.v
theories/LightModel.v
theories/LightSpec.v
theories/LightProofs.v
theories/LightWholeProofs.v
theories/LightScene.v
theories/LightTrueProofs.v
theories/LightExamples.v
theories/LightProperties.v
theories/PolyModel.v
theories/PolySpec.v
theories/PolySegProofs.v
theories/PolyChain.v
theories/PolyPair.v
theories/PolyPass.v
theories/PolyPath.v
theories/PolyExact.v
theories/PolyTurning.v
theories/PolyVertices.v
theories/PolyInside.v
theories/PolyComplete.v
theories/PolyMeet.v
theories/PolyArea.v
theories/PolySame.v
theories/PolyBoxProofs.v
theories/PolyRational.v
theories/PolyWitness.v
theories/PolyBoxSpec.v
theories/PolyMeaning.v
theories/PolyExamples.v
theories/PolyProperties.v
theories/PoseModel.v
theories/PoseSpec.v
theories/PoseReorder.v
theories/PoseBox.v
theories/PoseMatch.v
theories/PoseStages.v
theories/PosePem.v
theories/PoseWitness.v
theories/PoseProperties.v
theories/FrameModel.v
theories/FrameSpec.v
theories/FrameProofs.v
theories/FrameBoxes.v
theories/FrameProperties.v
theories/JoinModel.v
theories/JoinSpec.v
theories/JoinLists.v
theories/JoinProofs.v
theories/JoinGroup.v
theories/JoinMain.v
theories/JoinProperties.v
theories/KpModel.v
theories/KpSpec.v
theories/KpProofs.v
theories/KpProperties.v
theories/OksModel.v
theories/OksSpec.v
theories/OksProofs.v
theories/OksScores.v
theories/OksMeans.v
theories/OksPrecision.v
theories/OksWitness.v
theories/OksProperties.v
theories/WayModel.v
theories/WaySpec.v
theories/WayProofs.v
theories/WayFlow.v
theories/WayLookup.v
theories/WayProperties.v
theories/OccModel.v
theories/OccSpec.v
theories/OccGeom.v
theories/OccRender.v
theories/OccFlow.v
theories/OccCover.v
theories/OccWitness.v
theories/OccProperties.v
theories/OfmModel.v
theories/OfmSpec.v
theories/OfmIou.v
theories/OfmEpe.v
theories/OfmMetrics.v
theories/OfmWitness.v
theories/OfmProperties.v
theories/CamModel.v
theories/CamSpec.v
theories/CamLens.v
theories/CamFrames.v
theories/CamRolling.v
theories/CamSolve.v
theories/CamExact.v
theories/CamWitness.v
theories/CamFacts.v
theories/CamProperties.v
theories/LidModel.v
theories/LidSpec.v
theories/LidImages.v
theories/LidBeams.v
theories/LidReturn.v
theories/LidParse.v
theories/LidFrames.v
theories/LidVersions.v
theories/LidFacts.v
theories/LidProperties.v
theories/RayModel.v
theories/RaySpec.v
theories/RayProofs.v
theories/RayBoxes.v
theories/RayProperties.v
theories/PcaModel.v
theories/PcaSpec.v
theories/PcaLinear.v
theories/PcaTiles.v
theories/PcaCodec.v
theories/PcaAsset.v
theories/PcaProperties.v
theories/LineModel.v
theories/LineSpec.v
theories/LineProofs.v
theories/LineMeet.v
theories/LineCache.v
theories/LineWitness.v
theories/LineProperties.v
theories/StreamModel.v
theories/StreamSpec.v
theories/StreamProofs.v
theories/StreamDict.v
theories/StreamValues.v
theories/StreamProperties.v
theories/MatchOpModel.v
theories/MatchOpSpec.v
theories/MatchOpProofs.v
theories/MatchOpElement.v
theories/MatchOpApi.v
theories/MatchOpProperties.v
theories/ToolModel.v
theories/ToolSpec.v
theories/ToolProofs.v
theories/ToolTrack.v
theories/ToolProperties.v
theories/WireModel.v
theories/WireSpec.v
theories/WireProofs.v
theories/WireProperties.v
theories/SubmitModel.v
theories/SubmitSpec.v
theories/SubmitProofs.v
theories/SubmitProperties.v
theories/CompareModel.v
theories/CompareSpec.v
theories/CompareProofs.v
theories/CompareProperties.v
theories/ObjsModel.v
theories/ObjsSpec.v
theories/ObjsProofs.v
theories/ObjsProperties.v
theories/SegToolModel.v
theories/SegToolSpec.v
theories/SegToolProofs.v
theories/SegToolProperties.v
theories/MotionOpModel.v
theories/MotionOpSpec.v
theories/MotionOpProofs.v
theories/MotionOpProperties.v
theories/ExtractModel.v
theories/ExtractSpec.v
theories/ExtractProofs.v
theories/ExtractExamples.v
theories/ExtractProperties.v
theories/SensorModel.v
theories/SensorSpec.v
theories/SensorProofs.v
theories/SensorProperties.v
theories/TfReadModel.v
theories/TfReadSpec.v
theories/TfReadProofs.v
theories/TfReadWitness.v
theories/TfReadProperties.v
theories/SpeedModel.v
theories/SpeedSpec.v
theories/SpeedProofs.v
theories/SpeedProperties.v
theories/ExEqModel.v
theories/ExEqSpec.v
theories/ExEqProofs.v
theories/ExEqProperties.v
theories/KpDrawModel.v
theories/KpDrawSpec.v
theories/KpDrawProofs.v
theories/KpCropProofs.v
theories/KpDrawProperties.v
theories/FvisModel.v
theories/FvisSpec.v
theories/FvisProofs.v
theories/FvisFlow.v
theories/FvisColor.v
theories/FvisProperties.v
theories/PlotModel.v
theories/PlotSpec.v
theories/PlotProofs.v
theories/PlotProperties.v
theories/VizModel.v
theories/VizSpec.v
theories/VizProofs.v
theories/VizProperties.v
theories/CamOpModel.v
theories/CamOpSpec.v
theories/CamOpProofs.v
theories/CamOpProperties.v
theories/MfeatModel.v
theories/MfeatSpec.v
theories/MfeatCore.v
theories/MfeatProofs.v
theories/MfeatRows.v
theories/MfeatInter.v
theories/MfeatScene.v
theories/MfeatRollouts.v
theories/MfeatExample.v
theories/MfeatProperties.v
theories/RgbModel.v
theories/RgbSpec.v
theories/RgbProofs.v
theories/RgbProperties.v
theories/CombModel.v
theories/CombSpec.v
theories/CombNames.v
theories/CombProofs.v
theories/CombResults.v
theories/CombExample.v
theories/CombSides.v
theories/CombProperties.v
theories/LatModel.v
theories/LatSpec.v
theories/LatProofs.v
theories/LatMain.v
theories/LatExample.v
theories/LatProperties.v
theories/TruthModel.v
theories/TruthSpec.v
theories/TruthProofs.v
theories/TruthProperties.v
theories/HitModel.v
theories/HitSpec.v
theories/HitProofs.v
theories/HitExample.v
theories/HitProperties.v
theories/HullModel.v
theories/HullSpec.v
theories/HullProofs.v
theories/HullCheck.v
theories/HullExample.v
theories/HullProperties.v
theories/StkModel.v
theories/StkSpec.v
theories/StkProofs.v
theories/StkExample.v
theories/StkProperties.v
theories/AucModel.v
theories/AucSpec.v
theories/AucProofs.v
theories/AucCounts.v
theories/AucMetrics.v
theories/AucExample.v
theories/AucProperties.v
theories/RealismModel.v
theories/RealismSpec.v
theories/RealismProofs.v
theories/RealismScores.v
theories/RealismTotal.v
theories/RealismExample.v
theories/RealismProperties.v
theories/ArrowModel.v
theories/ArrowSpec.v
theories/ArrowProofs.v
theories/ArrowExample.v
theories/ArrowProperties.v
theories/DemoModel.v
theories/DemoSpec.v
theories/DemoProofs.v
theories/DemoDetect.v
theories/DemoExample.v
theories/DemoProperties.v
theories/ExtrapModel.v
theories/ExtrapSpec.v
theories/ExtrapProofs.v
theories/ExtrapDiffer.v
theories/ExtrapProperties.v
theories/SgenModel.v
theories/SgenSpec.v
theories/SgenProofs.v
theories/SgenProperties.v
theories/KindSpec.v
theories/KindProofs.v
theories/KindProperties.v
theories/TightSpec.v
theories/TightProofs.v
theories/TightProperties.v
theories/E2etModel.v
theories/E2etSpec.v
theories/E2etProofs.v
theories/E2etProperties.v
theories/SemtModel.v
theories/SemtSpec.v
theories/SemtProofs.v
theories/SemtProperties.v
theories/MtutModel.v
theories/MtutSpec.v
theories/MtutProofs.v
theories/MtutProperties.v
theories/PvtModel.v
theories/PvtSpec.v
theories/PvtProofs.v
theories/PvtProperties.v
theories/CotModel.v
theories/CotSpec.v
theories/CotProofs.v
theories/CotProperties.v
theories/OftModel.v
theories/OftSpec.v
theories/OftProofs.v
theories/OftProperties.v
theories/KatModel.v
theories/KatSpec.v
theories/KatProofs.v
theories/KatProperties.v
theories/MltModel.v
theories/MltSpec.v
theories/MltProofs.v
theories/MltProperties.v
