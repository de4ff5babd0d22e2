-Q theories Verif
theories/Audit.v
theories/Base.v
theories/CcTracker.v
theories/ContourCell.v
theories/ContourEdges.v
theories/ContourExamples.v
theories/ContourMesh.v
theories/ContourProofs.v
theories/ContourRanks.v
theories/ContourRun.v
theories/ContourSpec.v
theories/ContourSurface.v
theories/ContourTracker.v
theories/ContourTree.v
theories/ContourTreeProofs.v
theories/ContourTreeSpec.v
theories/ContourVolume.v
theories/ContourWater.v
theories/CpCells.v
theories/CpCurves.v
theories/CpExamples.v
theories/CpOnline.v
theories/CpRanks.v
theories/CpTraces.v
theories/CpTracker.v
theories/CpTrackerProofs.v
theories/CpTrackerRun.v
theories/CpTrackerSpec.v
theories/CritLine.v
theories/CritLineProofs.v
theories/Dijkstra.v
theories/DijkstraProofs.v
theories/DijkstraSpec.v
theories/Duf.v
theories/DufProofs.v
theories/FeatureCurve.v
theories/FeatureCurveProofs.v
theories/FeatureCurveProofs2.v
theories/FeatureCurveSet.v
theories/FeatureCurveSetProofs.v
theories/FeatureCurveSetSpec.v
theories/FeatureCurveSpec.v
theories/FeatureMesh.v
theories/Forest.v
theories/Graph.v
theories/GraphCurves.v
theories/GraphProofs.v
theories/GraphProofs2.v
theories/GraphSpec.v
theories/HK.v
theories/HKProofs.v
theories/HKSpec.v
theories/Inequality.v
theories/Interp.v
theories/Interval.v
theories/IntervalProofs.v
theories/IntervalSpec.v
theories/Kd.v
theories/KdProofs.v
theories/KdSpec.v
theories/Lattice.v
theories/LatticeProofs.v
theories/LatticeSpec.v
theories/LineCells.v
theories/LineExamples.v
theories/LineSpec.v
theories/ListOrd.v
theories/MeshCofaces.v
theories/MeshEnum.v
theories/MeshIndex.v
theories/MeshLevels.v
theories/MeshSides.v
theories/Motion.v
theories/Mpi.v
theories/MpiProofs.v
theories/MpiProofs2.v
theories/MpiSpec.v
theories/NdArray.v
theories/NdArrayProofs.v
theories/NdArrayProofs2.v
theories/NdArraySpec.v
theories/Numeric.v
theories/NumericMisc.v
theories/NumericRoots.v
theories/Parallel.v
theories/ParallelProofs.v
theories/ParallelSpec.v
theories/ParallelVector.v
theories/ParticleProofs.v
theories/ParticleTracer.v
theories/PartitionProofs.v
theories/Polynomial.v
theories/PropCcTracker.v
theories/PropContour.v
theories/PropContour3.v
theories/PropConv.v
theories/PropCpFilter.v
theories/PropCpOnline.v
theories/PropCpRanks.v
theories/PropCpStreamRanks.v
theories/PropCpTracker.v
theories/PropCpType.v
theories/PropCurve.v
theories/PropCurveSet.v
theories/PropDijkstra.v
theories/PropEigenvector.v
theories/PropFeatureMesh.v
theories/PropFeatureMesh2.v
theories/PropFeatureMesh3.v
theories/PropFeatureMesh4.v
theories/PropFeatureMeshEx.v
theories/PropGraph.v
theories/PropHK.v
theories/PropInequality.v
theories/PropInterp.v
theories/PropInterval.v
theories/PropKd.v
theories/PropLattice.v
theories/PropLine.v
theories/PropMotion.v
theories/PropMpi.v
theories/PropNdArray.v
theories/PropNumeric.v
theories/PropNumericMisc.v
theories/PropNumericRoots.v
theories/PropParallel.v
theories/PropParallelVector.v
theories/PropParallelVector3.v
theories/PropParticle.v
theories/PropPolynomial.v
theories/PropQuadBvh.v
theories/PropQuadLocator.v
theories/PropRational.v
theories/PropRationalFunction.v
theories/PropRegularMesh.v
theories/PropReset.v
theories/PropSoS.v
theories/PropStencil.v
theories/PropStencil2.v
theories/PropStreamingFilter.v
theories/PropTdgl.v
theories/PropTdglTracker.v
theories/PropTracking.v
theories/PropUExt2.v
theories/PropUExt3.v
theories/PropUMesh2.v
theories/PropUMesh3.v
theories/PropUnionFind.v
theories/PropXgc3.v
theories/PropXgcBlob.v
theories/QuadLocator.v
theories/Rational.v
theories/RationalProofs.v
theories/RationalSpec.v
theories/RegularMesh.v
theories/RegularMeshSpec.v
theories/Serial.v
theories/SerialProofs.v
theories/SerialSpec.v
theories/SoS.v
theories/SoSCross.v
theories/SoSEps.v
theories/SoSExact.v
theories/SoSInside.v
theories/SoSPerm.v
theories/SoSSpec.v
theories/SoSZero.v
theories/Stencil.v
theories/StencilProofs.v
theories/StreamingFilter.v
theories/Tdgl.v
theories/TdglExamples.v
theories/TdglTracker.v
theories/TrackingGraph.v
theories/TrackingGraphProofs.v
theories/TrackingGraphSpec.v
theories/TriRun.v
theories/TriSpec.v
theories/TriTracker.v
theories/UExt2.v
theories/UExt2Cofaces.v
theories/UExt2Faces.v
theories/UExt2Proofs.v
theories/UExt3.v
theories/UExt3Cells.v
theories/UExt3Cofaces.v
theories/UExt3Faces.v
theories/UExt3Proofs.v
theories/UExt3Sides.v
theories/UMesh2.v
theories/UMesh2Build.v
theories/UMesh2Edges.v
theories/UMesh2Proofs.v
theories/UMesh3.v
theories/UMesh3Proofs.v
theories/UnionFind.v
theories/UnionFindProofs.v
theories/UnionFindSpec.v
theories/VolumeSpec.v
theories/Xgc3.v
theories/Xgc3Proofs.v
theories/XgcBlob.v
