-Q theories Verif
theories/Outcome.v
theories/Dbl.v
theories/DistanceMapModel.v
theories/DistanceMapSpec.v
theories/DistanceMapProofs.v
theories/Prop_DistanceMap.v
theories/PixelSelectorModel.v
theories/PixelSelectorSpec.v
theories/PixelSelectorProofs.v
theories/Prop_PixelSelector.v
theories/DsoModel.v
theories/DsoSpec.v
theories/DsoHistory.v
theories/DsoProofs.v
theories/DsoActivate.v
theories/DsoBudget.v
theories/DsoRestore.v
theories/DsoExamples.v
theories/DsoFinal.v
theories/Prop_Dso.v
theories/PlyModel.v
theories/PlySpec.v
theories/PlyProofs.v
theories/OutputModel.v
theories/OutputSpec.v
theories/OutputProofs.v
theories/CloudProofs.v
theories/OutputExamples.v
theories/Prop_Output.v
theories/SnapshotModel.v
theories/SnapshotSpec.v
theories/SnapshotProofs.v
theories/SnapshotExamples.v
theories/Prop_Snapshot.v
theories/LightModel.v
theories/LightSpec.v
theories/LightProofs.v
theories/Prop_Light.v
theories/DblArith.v
theories/UtilModel.v
theories/UtilSpec.v
theories/UtilProofs.v
theories/Prop_Util.v
theories/FlagsModel.v
theories/FlagsSpec.v
theories/FlagsProofs.v
theories/Prop_Flags.v
theories/StereoModel.v
theories/StereoSpec.v
theories/StereoProofs.v
theories/StopModel.v
theories/StopProofs.v
theories/Prop_Stereo.v
theories/ReaderModel.v
theories/ReaderSpec.v
theories/ReaderProofs.v
theories/Prop_Reader.v
theories/Pose.v
theories/PoseProofs.v
theories/MotionModel.v
theories/MotionSpec.v
theories/MotionProofs.v
theories/Prop_Motion.v
theories/GeomModel.v
theories/GeomSpec.v
theories/GeomProofs.v
theories/GeomExamples.v
theories/Prop_Geom.v
theories/SphereModel.v
theories/SphereSpec.v
theories/SphereProofs.v
theories/SphereClip.v
theories/Prop_Sphere.v
theories/PyramidModel.v
theories/PyramidSpec.v
theories/PyramidProofs.v
theories/Prop_Pyramid.v
theories/CamModel.v
theories/CamSpec.v
theories/CamProofs.v
theories/CamTop.v
theories/Prop_Cam.v
theories/BorderModel.v
theories/BorderSpec.v
theories/BorderProofs.v
theories/Prop_Border.v
theories/TraceModel.v
theories/TraceSpec.v
theories/TraceProofs.v
theories/TraceMore.v
theories/TraceExamples.v
theories/Prop_Trace.v
theories/SectorModel.v
theories/SectorSpec.v
theories/SectorProofs.v
theories/SectorExamples.v
theories/SectorMore.v
theories/Prop_Sector.v
theories/BundleModel.v
theories/BundleSpec.v
theories/BundleProofs.v
theories/BundleMore.v
theories/BundleExamples.v
theories/Prop_Bundle.v
theories/TrackerModel.v
theories/TrackerSpec.v
theories/TrackerProofs.v
theories/TrackerMore.v
theories/TrackerExamples.v
theories/Prop_Tracker.v
theories/DelModel.v
theories/DelSpec.v
theories/DelFields.v
theories/DelRewire.v
theories/DelFlip.v
theories/DelFlip2.v
theories/DelDivide.v
theories/DelSplit.v
theories/DelHist.v
theories/DelPlaneSpec.v
theories/DelPlane.v
theories/DelGen.v
theories/DelRun.v
theories/DelRun2.v
theories/DelRun3.v
theories/DelThm.v
theories/DelExact.v
theories/DelExamples.v
theories/Prop_Del.v
theories/GtModel.v
theories/GtSpec.v
theories/GtProofs.v
theories/GtCloud.v
theories/GtExamples.v
theories/Prop_Gt.v
theories/BaseModel.v
theories/BaseSpec.v
theories/BaseProofs.v
theories/BaseMore.v
theories/BaseInit.v
theories/BaseExamples.v
theories/Prop_Base.v
theories/DelDiscSpec.v
theories/DelDisc.v
theories/DelWalk.v
theories/DelStar.v
theories/DelMove.v
theories/DelMesh.v
theories/DelLegal.v
theories/DelInsert.v
theories/DelCover.v
theories/DelFinal.v
theories/DelFinalEx.v
theories/Prop_Delaunay.v
theories/DelReach.v
theories/DelEnds.v
theories/DelEnds2.v
theories/DelLoop.v
theories/Prop_Search.v
theories/CalModel.v
theories/CalSpec.v
theories/CalProofs.v
theories/Prop_Cal.v
theories/JetModel.v
theories/JetProofs.v
theories/Prop_Jet.v
theories/LightRunModel.v
theories/LightRunSpec.v
theories/LightRunProofs.v
theories/Prop_LightRun.v
theories/AliveSpec.v
theories/AliveProofs.v
theories/Prop_Alive.v
theories/GtSampleModel.v
theories/GtSampleSpec.v
theories/GtSampleProofs.v
theories/Prop_GtSample.v
theories/GroundModel.v
theories/GroundSpec.v
theories/GroundProofs.v
theories/GroundMore.v
theories/GroundUnique.v
theories/GroundExamples.v
theories/Prop_Ground.v
theories/MainModel.v
theories/MainSpec.v
theories/MainProofs.v
theories/MainLoop.v
theories/MainTop.v
theories/MainExamples.v
theories/Prop_Main.v
theories/PhotoModel.v
theories/PhotoSpec.v
theories/PhotoProofs.v
theories/PhotoTop.v
theories/PhotoExamples.v
theories/Prop_Photo.v
theories/DrawModel.v
theories/DrawSpec.v
theories/DrawProofs.v
theories/DrawExamples.v
theories/Prop_Draw.v
theories/ArcModel.v
theories/ArcSpec.v
theories/ArcProofs.v
theories/ArcMore.v
theories/Prop_Arc.v
theories/EssModel.v
theories/EssSpec.v
theories/EssProofs.v
theories/EssMore.v
theories/EssTop.v
theories/EssExamples.v
theories/Prop_Ess.v
theories/PairModel.v
theories/PairSpec.v
theories/PairProofs.v
theories/PairTop.v
theories/PairExamples.v
theories/Prop_Pair.v
theories/EpiModel.v
theories/EpiSpec.v
theories/EpiProofs.v
theories/EpiTop.v
theories/EpiExamples.v
theories/Prop_Epi.v
theories/PlotModel.v
theories/PlotSpec.v
theories/PlotProofs.v
theories/PlotExamples.v
theories/Prop_Plot.v
theories/StatModel.v
theories/StatSpec.v
theories/StatProofs.v
theories/StatTop.v
theories/StatExamples.v
theories/Prop_Stat.v
theories/SelModel.v
theories/SelSpec.v
theories/SelProofs.v
theories/SelTop.v
theories/Prop_Sel.v
theories/TallyModel.v
theories/TallySpec.v
theories/TallyProofs.v
theories/TallyTop.v
theories/Prop_Tally.v
theories/DoubleModel.v
theories/DoubleArith.v
theories/DoubleSpec.v
theories/DoubleText.v
theories/DoubleProofs.v
theories/DoubleTop.v
theories/Prop_Double.v
theories/DenseModel.v
theories/DenseSpec.v
theories/DenseProofs.v
theories/Prop_Dense.v
