-Q theories Verif
theories/Base.v
theories/BaseFacts.v
theories/Topology.v
theories/TopologyFacts.v
theories/Shapes.v
theories/DofMap.v
theories/DofMapFacts.v
theories/SpecDof.v
theories/DofMapResults.v
theories/DofExamples.v
theories/PropertiesDof.v
theories/Colouring.v
theories/ColouringFacts.v
theories/SpecColour.v
theories/ColouringResults.v
theories/ColouringExamples.v
theories/PropertiesColour.v
theories/Process.v
theories/ProcessFacts.v
theories/Space.v
theories/SpecSpace.v
theories/SpaceFacts.v
theories/SpaceScript.v
theories/SpaceResults.v
theories/SpaceExamples.v
theories/PropertiesSpace.v
theories/Options.v
theories/SpecOptions.v
theories/OptionsResults.v
theories/PropertiesOptions.v
theories/Batch.v
theories/SpecBatch.v
theories/BatchFacts.v
theories/BatchResults.v
theories/PropertiesBatch.v
theories/Adjacency.v
theories/SpecAdjacency.v
theories/AdjacencyFacts.v
theories/AdjacencyResults.v
theories/AdjacencyExamples.v
theories/PropertiesAdjacency.v
theories/Scalar.v
theories/Integrand.v
theories/CellPair.v
theories/Operators.v
theories/SpecLocal.v
theories/LocalFacts.v
theories/LocalResults.v
theories/LocalArrays.v
theories/LocalExamples.v
theories/PropertiesLocal.v
theories/Interleave.v
theories/Assembly.v
theories/SpecAssembly.v
theories/InterleaveFacts.v
theories/AssemblyFacts.v
theories/AssemblyRaces.v
theories/AssemblyValues.v
theories/AssemblySingular.v
theories/AssemblyDense.v
theories/AssemblyTermination.v
theories/AssemblyExact.v
theories/AssemblyResults.v
theories/AssemblyExamples.v
theories/PropertiesAssembly.v
theories/PropertiesTermination.v
theories/SpecAlgebra.v
theories/AlgebraFacts.v
theories/AlgebraResults.v
theories/AlgebraExamples.v
theories/AlgebraSums.v
theories/PropertiesAlgebra.v
theories/SpecShapes.v
theories/SphereFacts.v
theories/SphereSurface.v
theories/SphereResults.v
theories/SpecSphere.v
theories/SphereGeometry.v
theories/SphereTiling.v
theories/ScreenFacts.v
theories/SpecScreen.v
theories/ScreenGeometry.v
theories/ShapesResults.v
theories/ShapesExamples.v
theories/PropertiesShapes.v
theories/Python.v
theories/SpecPython.v
theories/PythonFacts.v
theories/PythonResults.v
theories/PythonOptions.v
theories/PythonExamples.v
theories/PropertiesPython.v
theories/SpecDistributed.v
theories/DistributedFacts.v
theories/DistributedResults.v
theories/DistributedExamples.v
theories/PropertiesDistributed.v
theories/SpecRenumber.v
theories/RenumberResults.v
theories/RenumberExamples.v
theories/PropertiesRenumber.v
theories/SpecOperators.v
theories/OperatorsResults.v
theories/PropertiesOperators.v
theories/SpecOrder.v
theories/OrderResults.v
theories/OrderExamples.v
theories/PropertiesOrder.v
theories/SpecTransfer.v
theories/TransferResults.v
theories/TransferExamples.v
theories/PropertiesTransfer.v
theories/SpecScalars.v
theories/ScalarsResults.v
theories/ScalarsExamples.v
theories/PropertiesScalars.v
theories/SpecRounding.v
theories/GradedResults.v
theories/RoundingResults.v
theories/RoundingModels.v
theories/RoundingPositive.v
theories/RoundingExamples.v
theories/PropertiesRounding.v
theories/Serial.v
theories/SpecSerial.v
theories/SerialResults.v
theories/PropertiesSerial.v
theories/MixedResults.v
theories/MixedExamples.v
theories/PropertiesMixed.v
theories/PythonAssembly.v
theories/PythonAssemblyResults.v
theories/PropertiesPythonAssembly.v
theories/SpecBroken.v
theories/BrokenResults.v
theories/BrokenExamples.v
theories/PropertiesBroken.v
theories/SpecParts.v
theories/PartsResults.v
theories/PartsExamples.v
theories/PropertiesParts.v
theories/SpecSimilar.v
theories/SimilarResults.v
theories/SimilarExamples.v
theories/PropertiesSimilar.v
theories/ScreenEdges.v
theories/DimensionResults.v
theories/SpecShapeSpaces.v
theories/ShapeSpacesResults.v
theories/ShapeSpacesExamples.v
theories/PropertiesShapeSpaces.v
theories/SpecEdges.v
theories/EdgesResults.v
theories/EdgesExamples.v
theories/PropertiesEdges.v
theories/SpecNested.v
theories/NestedResults.v
theories/PropertiesNested.v
theories/CountsSphere.v
theories/CountsScreen.v
theories/SpecCounts.v
theories/CountsResults.v
theories/CountsExamples.v
theories/PropertiesCounts.v
theories/PythonLife.v
theories/SpecLife.v
theories/LifeResults.v
theories/LifeExamples.v
theories/PropertiesLife.v
theories/SphereWidth.v
theories/SpecWidth.v
theories/WidthResults.v
theories/PropertiesWidth.v
theories/SpecSymmetry.v
theories/SymmetryResults.v
theories/PropertiesSymmetry.v
theories/SphereVolume.v
theories/SpecFloatSphere.v
theories/FloatSphere.v
theories/FloatSphereNear.v
theories/FloatSphereError.v
theories/FloatSphereResults.v
theories/PropertiesFloatSphere.v
theories/SphereShort.v
theories/SpecVolume.v
theories/VolumeResults.v
theories/ScreenArea.v
theories/PropertiesVolume.v
theories/PythonSparse.v
theories/SpecPythonSparse.v
theories/PythonSparseResults.v
theories/PropertiesPythonSparse.v
theories/SpecFloatScreen.v
theories/FloatScreenResults.v
theories/PropertiesFloatScreen.v
theories/SplitResults.v
theories/SplitExamples.v
theories/PropertiesSplit.v
theories/SpecSolid.v
theories/SolidResults.v
theories/PropertiesSolid.v
theories/SpecAutomorphism.v
theories/AutomorphismResults.v
theories/SpecTurns.v
theories/TurnResults.v
theories/TurnExamples.v
theories/PropertiesTurns.v
theories/SpecGalerkin.v
theories/GalerkinResults.v
theories/GalerkinExamples.v
theories/PropertiesGalerkin.v
theories/SpecMeasure.v
theories/MeasureResults.v
theories/SpecGauss.v
theories/GaussResults.v
theories/GaussExamples.v
theories/PropertiesMeasure.v
theories/SpecShift.v
theories/ShiftResults.v
theories/SpecToeplitz.v
theories/ToeplitzResults.v
theories/ToeplitzExamples.v
theories/PropertiesShift.v
theories/SpecExchange.v
theories/ExchangeResults.v
theories/ExchangeExamples.v
theories/PropertiesExchange.v
theories/PythonBorrow.v
theories/SpecPythonBorrow.v
theories/PythonBorrowResults.v
theories/PythonBorrowExamples.v
theories/PropertiesPythonBorrow.v
theories/SpecSwitch.v
theories/SwitchResults.v
theories/SwitchExamples.v
theories/PropertiesSwitch.v
theories/SpecNear.v
theories/NearResults.v
theories/NearExamples.v
theories/PropertiesNear.v
theories/SpecShare.v
theories/ShareResults.v
theories/ShareScreen.v
theories/ShareExamples.v
theories/PropertiesShare.v
theories/SpecFirst.v
theories/FirstResults.v
theories/FirstNumbers.v
theories/FirstExamples.v
theories/PropertiesFirst.v
theories/SpecFit.v
theories/FitResults.v
theories/FitScreens.v
theories/FitExamples.v
theories/PropertiesFit.v
theories/SpecReach.v
theories/ReachResults.v
theories/ReachExamples.v
theories/PropertiesReach.v
theories/SpecApart.v
theories/HatFunctions.v
theories/ApartResults.v
theories/ApartScreen.v
theories/ApartSharp.v
theories/PropertiesApart.v
theories/SpecWaves.v
theories/KernelResults.v
theories/WaveKernel.v
theories/WaveResults.v
theories/WaveLimits.v
theories/WavePositive.v
theories/WaveExamples.v
theories/PropertiesWaves.v
theories/SpecDigits.v
theories/DigitsFacts.v
theories/DigitsResults.v
theories/DigitsExamples.v
theories/PropertiesDigits.v
theories/SpecDecay.v
theories/DecayResults.v
theories/DecayPoints.v
theories/DecayShapes.v
theories/DecayScreen.v
theories/DecayWaves.v
theories/DecayExamples.v
theories/PropertiesDecay.v
theories/SpecMoments.v
theories/MomentResults.v
theories/MomentShapes.v
theories/MomentExamples.v
theories/PropertiesMoments.v
theories/SpecPlanes.v
theories/PlaneResults.v
theories/PlaneFloats.v
theories/PlaneExact.v
theories/PlaneHyper.v
theories/PlaneExamples.v
theories/PropertiesPlanes.v
theories/SpecConvex.v
theories/ConvexSphere.v
theories/ConvexSigns.v
theories/ConvexFloats.v
theories/ConvexResults.v
theories/ConvexExamples.v
theories/PropertiesConvex.v
theories/SpecFar.v
theories/FarResults.v
theories/FarKernel.v
theories/FarShapes.v
theories/FarExamples.v
theories/PropertiesFar.v
theories/Tests.v
theories/SpecTests.v
theories/TestsResults.v
theories/TestsMeaning.v
theories/TestsExamples.v
theories/PropertiesTests.v
theories/ReferenceExamples.v
theories/SpecOrbit.v
theories/OrbitResults.v
theories/OrbitExamples.v
theories/PropertiesOrbit.v
theories/SpecCurls.v
theories/CurlResults.v
theories/CurlSpaces.v
theories/CurlExamples.v
theories/SpecDefinite.v
theories/DefiniteResults.v
theories/DefiniteShapes.v
theories/DefiniteExamples.v
theories/PropertiesCurls.v
theories/SpecRims.v
theories/RimKernel.v
theories/RimResults.v
theories/RimShapes.v
theories/RimExamples.v
theories/PropertiesRims.v
theories/SpecDegree.v
theories/LegendreSeries.v
theories/DegreeIntegrals.v
theories/DegreeResults.v
theories/DegreeExact.v
theories/DegreeShapes.v
theories/DegreeExamples.v
theories/PropertiesDegree.v
theories/SpecPatches.v
theories/PatchKernel.v
theories/PatchResults.v
theories/PatchShapes.v
theories/PatchExamples.v
theories/PropertiesPatches.v
theories/SpecPieces.v
theories/PieceKernel.v
theories/PieceResults.v
theories/PieceShapes.v
theories/PieceExamples.v
theories/PropertiesPieces.v
theories/FluxKernel.v
theories/SpecFluxes.v
theories/FluxResults.v
theories/FluxShapes.v
theories/FluxExamples.v
theories/PropertiesFluxes.v
theories/SpecSwirls.v
theories/SwirlResults.v
theories/SwirlShapes.v
theories/SwirlExamples.v
theories/PropertiesSwirls.v
theories/EchoKernel.v
theories/EchoResults.v
theories/EchoShapes.v
theories/EchoExamples.v
theories/PropertiesEchoes.v
theories/DriftKernel.v
theories/DriftResults.v
theories/DriftShapes.v
theories/DriftExamples.v
theories/PropertiesDrifts.v
theories/SpecSurges.v
theories/SurgeResults.v
theories/SurgeShapes.v
theories/SurgeExamples.v
theories/PropertiesSurges.v
theories/ContinuousShapes.v
theories/ContinuousExamples.v
theories/BudgetResults.v
theories/BudgetExamples.v
theories/PropertiesBudget.v
theories/TollResults.v
theories/TollExamples.v
theories/PropertiesToll.v
theories/SpecCensus.v
theories/CensusResults.v
theories/CornerOrderResults.v
theories/PropertiesCensus.v
theories/SpecFrame.v
theories/FrameResults.v
theories/PropertiesFrame.v
theories/SpecRuleSymmetry.v
theories/RuleSymmetryResults.v
theories/RuleSymmetryExamples.v
theories/RuleSymmetryScreen.v
theories/RuleSymmetryWaves.v
theories/RuleSymmetryQuads.v
theories/RuleSymmetryNeeded.v
theories/PropertiesRuleSymmetry.v
