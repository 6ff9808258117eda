-Q theories Verif
theories/Np.v
theories/NpFacts.v
theories/UtilsModel.v
theories/SpecUtils.v
theories/UtilsProofs.v
theories/PropUtils.v
theories/AtomModel.v
theories/SpecAtom.v
theories/AtomProofs.v
theories/PropAtom.v
theories/LinAlg.v
theories/LinFacts.v
theories/BasisModel.v
theories/SpecBasis.v
theories/BasisProofs.v
theories/ReciprocalProofs.v
theories/NeighborCellProofs.v
theories/VolumeProofs.v
theories/PropBasis.v
theories/PropReciprocal.v
theories/SpatialModel.v
theories/ShapeModel.v
theories/SpecSpatial.v
theories/SpatialProofs.v
theories/KDProofs.v
theories/PropSpatial.v
theories/ShapeProofs.v
theories/PropShape.v
theories/RealModel.v
theories/PropReal.v
theories/DataModel.v
theories/SpecData.v
theories/DataFacts.v
theories/DataProofs.v
theories/DataOps.v
theories/DataAppend.v
theories/DataMapProofs.v
theories/DataInv.v
theories/PropData.v
theories/PropDataMap.v
theories/StructureModel.v
theories/SpecStructure.v
theories/RoundFacts.v
theories/KDBrute.v
theories/StructureFacts.v
theories/AnalyzeProofs.v
theories/StructureProofs.v
theories/PropStructure.v
theories/PropAnalyze.v
theories/SpecBuild.v
theories/BuildProofs.v
theories/PropBuild.v
theories/FilterProofs.v
theories/SpecNeighbors.v
theories/NeighborProofs.v
theories/RadiusProofs.v
theories/PropQueries.v
theories/PropNeighbors.v
theories/PropDict.v
theories/LatticeModel.v
theories/LinkModel.v
theories/SpecLattice.v
theories/PropDangling.v
theories/LatticeFacts.v
theories/LatticeExamples.v
theories/PropLattice.v
theories/PropLimits.v
theories/TranslationFacts.v
theories/PropMinDist.v
theories/ImageProofs.v
theories/PNeighborProofs.v
theories/PropPeriodic.v
theories/PathModel.v
theories/PropPath.v
theories/PropFailed.v
theories/RepeatProofs.v
theories/PropRepeat.v
theories/PresetModel.v
theories/PropPrimitive.v
theories/RangeProofs.v
theories/BuiltProofs.v
theories/SpecGrid.v
theories/PropBuilt.v
theories/GridProofs.v
theories/PropGrid.v
theories/PropPreset.v
theories/HexModel.v
theories/PropHexagonal.v
theories/SeamProofs.v
theories/SpecSeam.v
theories/PropSeam.v
theories/PropCells.v
theories/SpecJoin.v
theories/JoinProofs.v
theories/BoxProofs.v
theories/PropJoin.v
theories/PropExtend.v
theories/IdentityModel.v
theories/PropIdentity.v
theories/VoronoiModel.v
theories/SpecVoronoi.v
theories/VoronoiProofs.v
theories/PropVoronoi.v
theories/PropClose.v
theories/PropVrange.v
theories/PropHull.v
theories/PropFrame.v
theories/SpecTorus.v
theories/SpecBlock.v
theories/TorusProofs.v
theories/BlockProofs.v
theories/PropTorus.v
theories/PathScaleModel.v
theories/PropPathScale.v
theories/PropAtomDict.v
theories/PropIndexLimits.v
theories/RestoreProofs.v
theories/PropReset.v
theories/PropBlock.v
theories/SpecFinite.v
theories/PropFinite.v
theories/MatrixModel.v
theories/SpecMatrix.v
theories/PropMatrix.v
theories/PropMatrixBuilt.v
theories/SpecBloch.v
theories/PropBloch.v
theories/RepoTests.v
theories/SpecOrder.v
theories/PropOrder.v
theories/SpecLinks.v
theories/PropLinks.v
theories/PropNumbers.v
theories/SpecGraph.v
theories/PropGraph.v
theories/PlotModel.v
theories/SpecPlot.v
theories/PropPlot.v
theories/PropPlotTorus.v
theories/SpecCell.v
theories/PropPlotCell.v
theories/PropPrimShape.v
theories/DispPlotModel.v
theories/PropDispPlot.v
theories/ShapePlotModel.v
theories/PropShapePlot.v
theories/PropDonutPlot.v
theories/ConstructModel.v
theories/PropConstruct.v
theories/PathPlotModel.v
theories/PropPathPlot.v
theories/SpecShell.v
theories/ShellProofs.v
theories/PropShell.v
theories/PropForm.v
theories/PropFormBuilt.v
theories/HoneycombModel.v
theories/PropHoneycomb.v
theories/PropHoneyBuilt.v
theories/PropHoneyTorus.v
theories/PropRing.v
theories/PropHexBlock.v
theories/PropCubicBlock.v
theories/DrawModel.v
theories/PropDraw.v
theories/InterpModel.v
theories/SpecInterp.v
theories/PropInterp.v
theories/KdtreeModel.v
theories/PropKdtree.v
theories/FourierFacts.v
theories/PropBands.v
theories/PropEdges.v
