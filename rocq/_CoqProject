-Q theories Verif
theories/Base.v
theories/F64.v
theories/F64Facts.v
theories/Coordinate.v
theories/Segment.v
theories/Polygon.v
theories/Periodicity.v
theories/Polyline.v
theories/Graph.v
theories/SpecGraph.v
theories/GraphFacts.v
theories/GraphMore.v
theories/Props_Graph.v
theories/PeriodicityFacts.v
theories/Props_Periodicity.v
theories/CoordinateFacts.v
theories/SpecGeom.v
theories/SegmentFacts.v
theories/Props_Coordinate.v
theories/Props_Segment.v
theories/PolygonFacts.v
theories/PolygonFloat.v
theories/PolygonMore.v
theories/Props_Polygon.v
theories/Serializer.v
theories/BytesFacts.v
theories/SaveFacts.v
theories/LoadFacts.v
theories/SpecFile.v
theories/RoundFacts.v
theories/SerializerMore.v
theories/Props_Serializer.v
theories/Visgraph.v
theories/VisgraphFacts.v
theories/Props_Visgraph.v
theories/SplitFacts.v
theories/Props_Splits.v
theories/FileIdentity.v
theories/Props_Files.v
theories/Overlay.v
theories/OverlayFacts.v
theories/Props_Overlay.v
theories/Locks.v
theories/LocksFacts.v
theories/Props_Locks.v
theories/PolylineFacts.v
theories/Props_Polyline.v
theories/Sweep.v
theories/SweepFacts.v
theories/SweepMaps.v
theories/SweepGen.v
theories/OpenEdgesFacts.v
theories/AngleFacts.v
theories/AngleSort.v
theories/SweepHalf.v
theories/SweepForced.v
theories/SweepCases.v
theories/SweepOpen.v
theories/SweepOrder.v
theories/SweepGeo.v
theories/SweepSound.v
theories/SweepLayers.v
theories/SweepExact.v
theories/SweepGraph.v
theories/SweepWorld.v
theories/Props_Sweep.v
theories/ShortestPath.v
theories/DistFacts.v
theories/SearchFacts.v
theories/SearchSpec.v
theories/SearchGraph.v
theories/SearchQuery.v
theories/PathFacts.v
theories/PathMore.v
theories/Props_Path.v
theories/SweepHalfGraph.v
theories/FreePaths.v
theories/SweepHashOrder.v
theories/BlockedLegs.v
theories/SweepUnsorted.v
theories/Props_Exact.v
theories/PyLayer.v
theories/PyFacts.v
theories/Props_Python.v
theories/Props_Pipeline.v
theories/ParallelFacts.v
theories/Props_Parallel.v
theories/Pipeline.v
theories/PipelineFacts.v
theories/Sphere.v
theories/SphereFacts.v
theories/Props_Sphere.v
theories/Boundary.v
theories/Props_Boundary.v
theories/OverlayVertices.v
theories/SegmentTree.v
theories/Props_SegmentTree.v
theories/Vectors.v
theories/VectorFacts.v
theories/Props_Vectors.v
theories/PathMonotone.v
theories/Props_Monotone.v
theories/ShoreFacts.v
theories/Props_Shore.v
theories/SphereBack.v
theories/Props_SphereBack.v
theories/OpenWater.v
theories/Props_Open.v
theories/PipelineOpen.v
theories/Props_OpenRun.v
theories/PipelineFree.v
theories/Props_EndToEnd.v
theories/SweepFronts.v
theories/SeaLines.v
theories/SurveyCheck.v
theories/SurveyFast.v
theories/PipelineSea.v
theories/Props_Sea.v
theories/Jordan.v
theories/Coasts.v
theories/CoastExact.v
theories/CoastCheck.v
theories/CoastRun.v
theories/Props_Coast.v
theories/Ways.v
theories/WayRun.v
theories/Props_Ways.v
theories/LandWays.v
theories/Props_LandWays.v
theories/Around.v
theories/Props_Around.v
theories/Stretch.v
theories/Props_Stretch.v
theories/Foot.v
theories/Props_Foot.v
theories/Mirror.v
theories/Props_Mirror.v
theories/Detour.v
theories/Props_Detour.v
theories/MoreLand.v
theories/Props_MoreLand.v
theories/Touch.v
theories/Default.v
theories/Props_Default.v
theories/Green.v
theories/Enclosed.v
theories/Covers.v
theories/Props_Enclosed.v
theories/Show.v
theories/ShowFacts.v
theories/Props_Show.v
theories/RepoTests.v
