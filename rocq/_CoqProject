-Q theories Verif

theories/Machine.v
theories/MachineProofs.v
theories/TypeSeqModel.v
theories/TypeSeqProofs.v
theories/TaggedModel.v
theories/TaggedSpec.v
theories/TaggedProofs.v
theories/DomainModel.v
theories/DomainSpec.v
theories/DomainProofs.v
theories/ListAux.v
theories/DomainProofs2.v
theories/IteratorModel.v
theories/IteratorProofs.v
theories/StridedModel.v
theories/StridedSpec.v
theories/StridedProofs.v
theories/SparseModel.v
theories/SparseSpec.v
theories/SparseProofs.v
theories/CoreLemmas.v
theories/PropertiesCore.v
theories/SpanModel.v
theories/SpanSpec.v
theories/SpanProofs.v
theories/StorageProofs.v
theories/KokkosModel.v
theories/KokkosSpec.v
theories/KokkosProofs.v
theories/PropertiesSpan.v
theories/ChunkMemModel.v
theories/ChunkMemSpec.v
theories/ChunkMemProofs.v
theories/BlockModel.v
theories/BlockSpec.v
theories/BlockProofs.v
theories/BlockProofs2.v
theories/ReduceModel.v
theories/ReduceSpec.v
theories/ReduceProofs.v
theories/ReduceProofs2.v
theories/ScanProofs.v
theories/ScanProofs2.v
theories/ParModel.v
theories/ParSpec.v
theories/ParProofs.v
theories/ParProofs2.v
theories/ParProofs3.v
theories/ParallelLemmas.v
theories/PropertiesParallel.v
theories/SpaceModel.v
theories/SpaceSpec.v
theories/SpaceProofs.v
theories/PropertiesSpace.v
theories/NpyModel.v
theories/NpySpec.v
theories/NpyProofs.v
theories/NpyProofs2.v
theories/PropertiesNpy.v
theories/PrintModel.v
theories/PrintSpec.v
theories/PrintProofs.v
theories/PrintProofs2.v
theories/PrintThreads.v
theories/PropertiesPrint.v
theories/ArithModel.v
theories/SamplingModel.v
theories/SamplingSpec.v
theories/SamplingProofs.v
theories/PropertiesSampling.v
theories/PdiModel.v
theories/PdiSpec.v
theories/PdiProofs.v
theories/FloatLink.v
theories/MathModel.v
theories/MathProofs.v
theories/PropertiesMisc.v
theories/LoopModel.v
theories/BSplineModel.v
theories/BSplineSpec.v
theories/LoopProofs.v
theories/BSplineMath.v
theories/BSplineDeriv.v
theories/BSplineProofs.v
theories/BSplineNDerivs.v
theories/BSplineUniform.v
theories/CellProofs.v
theories/KnotProofs.v
theories/NonUniformProofs.v
theories/UniformProofs.v
theories/SplineLemmas.v
theories/SplineLemmas2.v
theories/SplineFindings.v
theories/FloatCell.v
theories/CellFindings.v
theories/PropertiesSplines.v
theories/PointsModel.v
theories/PointsSpec.v
theories/PointsProofs.v
theories/PointsProofs2.v
theories/PointsProofs3.v
theories/PointsLemmas.v
theories/PropertiesPoints.v
theories/LinearModel.v
theories/LinearSpec.v
theories/LinearContract.v
theories/LinearProofs.v
theories/LinearProofs2.v
theories/LinearProofs3.v
theories/LinearProofs4.v
theories/LinearProofs5.v
theories/LinearProofs6.v
theories/LinearLemmas.v
theories/PropertiesLinear.v
theories/IntegralModel.v
theories/IntegralSpec.v
theories/IntegralMath.v
theories/IntegralMath2.v
theories/IntegralProofs.v
theories/PropertiesIntegral.v
theories/EvaluatorModel.v
theories/EvaluatorSpec.v
theories/EvaluatorSpace.v
theories/EvaluatorProofs.v
theories/EvaluatorProofs2.v
theories/EvaluatorLemmas.v
theories/EvaluatorFindings.v
theories/PropertiesEvaluator.v
theories/BuilderModel.v
theories/BuilderSpec.v
theories/BuilderMath.v
theories/BuilderProofs.v
theories/BuilderProofs2.v
theories/BuilderProofs3.v
theories/BuilderProofs4.v
theories/BuilderBand.v
theories/BuilderGrid.v
theories/BuilderLemmas.v
theories/BuilderPoints.v
theories/BuilderQuadrature.v
theories/BuilderFindings.v
theories/BuilderTheorems.v
theories/PropertiesBuilder.v
theories/Spline2DModel.v
theories/Spline2DSpec.v
theories/Spline2DProofs.v
theories/Spline2DMath.v
theories/Spline2DBuild.v
theories/Spline2DEval.v
theories/Spline2DEval2.v
theories/Spline2DIntegral.v
theories/Spline2DTheorems.v
theories/PropertiesSpline2D.v
theories/FFTModel.v
theories/FFTSpec.v
theories/FFTMath.v
theories/FFTProofs.v
theories/FFTTheorems.v
theories/PropertiesFFT.v
theories/FloatCell2.v
theories/FloatCell3.v
theories/SplineNDModel.v
theories/SplineNDSpec.v
theories/SplineNDProofs.v
theories/SplineNDEval.v
theories/SplineNDEval2.v
theories/SplineNDIntegral.v
theories/Spline3DModel.v
theories/SplineNDAgree.v
theories/SplineNDTheorems.v
theories/PropertiesSplineND.v
theories/Spline3DSpec.v
theories/Spline3DMath.v
theories/Spline3DSlices.v
theories/Spline3DBuild.v
theories/Spline3DFindings.v
theories/Spline3DTheorems.v
theories/PropertiesSpline3D.v
theories/SplineZeros.v
theories/SplineTower.v
theories/WellPosedSpec.v
theories/SplineUnique.v
theories/SplineUniquePeriodic.v
theories/SplineUniqueUniform.v
theories/SplineUniqueKnots.v
theories/LinearKernel.v
theories/WellPosedProofs.v
theories/WellPosedPoints.v
theories/WellPosedBuild.v
theories/WellPosedAlternative.v
theories/LinearGauss.v
theories/WellPosedTheorems.v
theories/WellPosedExamples.v
theories/PropertiesWellPosed.v
theories/SplineComplete.v
theories/ReproduceSpec.v
theories/ReproduceProofs.v
theories/ReproduceTheorems.v
theories/Reproduce2D.v
theories/ReproduceExamples.v
theories/PropertiesReproduce.v
theories/CoordModel.v
theories/CoordSpec.v
theories/CoordProofs.v
theories/CoordTheorems.v
theories/PropertiesCoord.v
theories/ShapeSpec.v
theories/ShapeTower.v
theories/ShapeProofs.v
theories/ShapeProofs2.v
theories/ShapeTheorems.v
theories/ShapeExamples.v
theories/PropertiesShape.v
theories/FloatBasis.v
theories/FloatSpec.v
theories/FloatEval.v
theories/FloatTheorems.v
theories/FloatExamples.v
theories/PropertiesFloat.v
theories/ProgramModel.v
theories/LifeModel.v
theories/LifeSpec.v
theories/ProgramProofs.v
theories/GridProofs.v
theories/LifeProofs.v
theories/LifeTheorems.v
theories/PropertiesPrograms.v
theories/HeatModel.v
theories/LineProofs.v
theories/HeatGrid.v
theories/HeatSpec.v
theories/HeatProofs.v
theories/HeatReals.v
theories/HeatPoints.v
theories/HeatTheorems.v
theories/PropertiesHeat.v
theories/HeatAny.v
theories/AdvectionModel.v
theories/AdvectionSpec.v
theories/AdvectionMath.v
theories/AdvectionMove.v
theories/AdvectionProofs.v
theories/AdvectionTheorems.v
theories/PropertiesAdvection.v
theories/SpectralModel.v
theories/SpectralSpec.v
theories/SpectralMath.v
theories/SpectralProofs.v
theories/SpectralTheorems.v
theories/SpectralFindings.v
theories/PropertiesSpectral.v
theories/HeapModel.v
theories/HeapSpec.v
theories/HeapProofs.v
theories/HeapTheorems.v
theories/PropertiesHeap.v
theories/OpenAdvectionModel.v
theories/OpenAdvectionSpec.v
theories/OpenAdvectionProofs.v
theories/OpenAdvectionTheorems.v
theories/PropertiesOpenAdvection.v
theories/ExposeModel.v
theories/ExposeSpec.v
theories/ExposeProofs.v
theories/ExposeTheorems.v
theories/PropertiesExpose.v
theories/FloatStep.v
theories/FloatNonUniform.v
theories/FloatKnots.v
theories/FloatNonUniformSpec.v
theories/FloatKnots2.v
theories/FloatNonUniformTheorems.v
theories/FloatNonUniformExamples.v
theories/PropertiesFloatNonUniform.v
theories/FloatIntegral.v
theories/FloatIntegral2.v
theories/FloatIntegralTheorems.v
theories/PropertiesFloatIntegral.v
theories/FloatGreville.v
theories/FloatGrevilleSpec.v
theories/FloatGreville2.v
theories/FloatGrevilleTheorems.v
theories/PropertiesFloatGreville.v
theories/FloatGreville3.v
