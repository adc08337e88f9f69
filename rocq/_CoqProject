-Q theories Verif
theories/Base.v
theories/BaseFacts.v
theories/Numpy.v
theories/NumpyFacts.v
theories/Shapes.v
theories/Scalar.v
theories/Reorder.v
theories/Elementwise.v
theories/Reduce.v
theories/Along.v
theories/Sorting.v
theories/Derived.v
theories/Interp.v
theories/Vector.v
theories/Struct.v
theories/Matrix.v
theories/Geometry.v
theories/Transform.v
theories/Rotation.v
theories/Optimize.v
theories/Rank.v
theories/Pdf.v
theories/Func.v
theories/Uncertain.v
theories/Dispatch.v
theories/Random.v
theories/Hist.v
theories/InterpAxis.v
theories/Regrid.v
theories/History.v
theories/Quantile.v
theories/FuncOps.v
theories/Spec.v
theories/SpecDerived.v
theories/SpecNumeric.v
theories/SpecVector.v
theories/SpecStruct.v
theories/SpecMatrix.v
theories/SpecGeometry.v
theories/SpecTransform.v
theories/SpecRotation.v
theories/SpecOptimize.v
theories/SpecRank.v
theories/SpecPdf.v
theories/SpecFunc.v
theories/SpecUncertain.v
theories/SpecDispatch.v
theories/SpecRandom.v
theories/SpecHist.v
theories/SpecRegrid.v
theories/SpecHistory.v
theories/SpecQuantile.v
theories/SpecFuncOps.v
theories/SpecInterp.v
theories/ShapesFacts.v
theories/AlignFacts.v
theories/GetitemFacts.v
theories/SetitemFacts.v
theories/ReorderFacts.v
theories/ElementwiseFacts.v
theories/ReduceFacts.v
theories/AlongFacts.v
theories/SortingFacts.v
theories/DerivedFacts.v
theories/CenterFacts.v
theories/LinspaceFacts.v
theories/InterpFacts.v
theories/VectorFacts.v
theories/CartesianFacts.v
theories/VectorIndexFacts.v
theories/StructFacts.v
theories/MatrixFacts.v
theories/MatrixLaws.v
theories/GeometryFacts.v
theories/VolumeFacts.v
theories/DotFacts.v
theories/TransformFacts.v
theories/RotationFacts.v
theories/OptimizeFacts.v
theories/SecantFacts.v
theories/RankOrder.v
theories/RankFacts.v
theories/RankdataFacts.v
theories/PdfFacts.v
theories/FuncFacts.v
theories/UncertainFacts.v
theories/UncertainIndexFacts.v
theories/DispatchFacts.v
theories/RandomFacts.v
theories/HistFacts.v
theories/HistTopFacts.v
theories/RegridFacts.v
theories/HistoryFacts.v
theories/QuantileFacts.v
theories/FuncOpsFacts.v
theories/FuncPairsFacts.v
theories/FuncUfuncFacts.v
theories/FuncShapeFacts.v
theories/InterpAxisFacts.v
theories/Prop01.v
theories/Prop02.v
theories/Prop03.v
theories/Prop04.v
theories/Prop05.v
theories/Prop06.v
theories/Prop07.v
theories/Prop08.v
theories/Prop09.v
theories/Prop11.v
theories/Prop12.v
theories/Prop13.v
theories/Prop22.v
theories/Prop38.v
theories/Prop43.v
theories/Prop46.v
theories/Prop47.v
theories/Prop44.v
theories/Prop45.v
theories/Prop48.v
theories/Prop14.v
theories/Prop49.v
theories/Prop17.v
theories/Prop18.v
theories/Prop19.v
theories/Prop50.v
theories/Prop51.v
theories/Prop52.v
theories/Prop15.v
theories/Prop16.v
theories/Prop53.v
theories/Prop10.v
theories/Prop39.v
theories/Prop40.v
theories/Prop23.v
theories/Prop24.v
theories/Prop25.v
theories/Prop26.v
theories/Prop54.v
theories/Prop55.v
theories/Prop56.v
theories/Prop20.v
theories/Prop21.v
theories/Prop27.v
theories/Prop41.v
theories/Prop42.v
theories/Prop57.v
theories/Prop58.v
theories/Prop28.v
theories/Prop59.v
theories/Prop29.v
theories/Prop30.v
theories/Prop31.v
theories/Prop32.v
theories/Prop33.v
theories/Prop34.v
theories/Prop35.v
theories/Prop36.v
theories/Prop37.v
theories/Prop60.v
theories/Prop61.v
theories/Prop62.v
theories/Prop63.v
theories/Prop64.v
theories/Prop65.v
theories/Prop66.v
theories/Prop67.v
theories/Prop68.v
theories/Prop69.v
theories/Prop70.v
theories/Prop71.v
theories/Choice.v
theories/SpecChoice.v
theories/LoopFacts.v
theories/ChoiceFacts.v
theories/Prop72.v
theories/Despike.v
theories/SpecDespike.v
theories/DespikeFacts.v
theories/Prop73.v
theories/Polygon.v
theories/PolygonFacts.v
theories/Prop74.v
theories/NumExpr.v
theories/SpecNumExpr.v
theories/NumExprFacts.v
theories/Prop75.v
theories/Fourier.v
theories/SpecFourier.v
theories/FourierFacts.v
theories/Prop76.v
theories/Strata.v
theories/SpecStrata.v
theories/StrataFacts.v
theories/Prop77.v
theories/Filter.v
theories/SpecFilter.v
theories/FilterFacts.v
theories/UncertainFilterFacts.v
theories/Prop78.v
theories/Poly.v
theories/SpecPoly.v
theories/PolyFacts.v
theories/PolyFitFacts.v
theories/PolyNameFacts.v
theories/PolyLaws.v
theories/Prop79.v
theories/BigMatrix.v
theories/SpecInverse.v
theories/BigInverseFacts.v
theories/BigInverseLaws.v
theories/Prop80.v
theories/Jacobian.v
theories/SpecJacobian.v
theories/JacobianFacts.v
theories/JacobianLaws.v
theories/Prop81.v
theories/VectorReduce.v
theories/SpecVectorReduce.v
theories/VectorReduceFacts.v
theories/Prop82.v
theories/VectorOptimize.v
theories/SpecVectorOptimize.v
theories/VectorOptimizeFacts.v
theories/VectorOptimizeLaws.v
theories/Prop83.v
theories/DescentFacts.v
theories/DescentLaws.v
theories/Prop84.v
theories/Convolve.v
theories/SpecConvolve.v
theories/ConvolveFacts.v
theories/Prop85.v
theories/VectorEqual.v
theories/SpecVectorEqual.v
theories/VectorEqualFacts.v
theories/Prop86.v
theories/VectorAxes.v
theories/SpecVectorAxes.v
theories/VectorAxesFacts.v
theories/VectorAlongFacts.v
theories/Prop87.v
theories/VectorSort.v
theories/VectorSortFacts.v
theories/Prop88.v
theories/VectorStack.v
theories/SpecVectorStack.v
theories/VectorStackFacts.v
theories/Prop89.v
theories/VectorArg.v
theories/SpecVectorArg.v
theories/VectorArgFacts.v
theories/Prop90.v
theories/VectorChoice.v
theories/SpecVectorChoice.v
theories/VectorChoiceFacts.v
theories/Prop91.v
theories/Nonzero.v
theories/SpecNonzero.v
theories/NonzeroFacts.v
theories/Prop92.v
theories/VectorQuantile.v
theories/SpecVectorQuantile.v
theories/VectorQuantileFacts.v
theories/Prop93.v
theories/VectorFourier.v
theories/VectorFourierFacts.v
theories/Prop94.v
theories/NanToNum.v
theories/SpecNanToNum.v
theories/NanToNumFacts.v
theories/Prop95.v
theories/UncertainReorder.v
theories/UncertainReorderFacts.v
theories/Prop96.v
theories/UncertainChoice.v
theories/SpecUncertainChoice.v
theories/UncertainChoiceFacts.v
theories/Prop97.v
theories/UncertainAlong.v
theories/SpecUncertainAlong.v
theories/UncertainAlongFacts.v
theories/Prop98.v
theories/UncertainEqual.v
theories/SpecUncertainEqual.v
theories/UncertainEqualFacts.v
theories/Prop99.v
theories/UncertainJoin.v
theories/SpecUncertainJoin.v
theories/UncertainJoinFacts.v
theories/Prop100.v
theories/UncertainFourier.v
theories/UncertainFourierFacts.v
theories/Prop101.v
theories/UncertainTake.v
theories/SpecUncertainTake.v
theories/UncertainTakeFacts.v
theories/Prop102.v
theories/UncertainSort.v
theories/SpecUncertainSort.v
theories/UncertainSortFacts.v
theories/Prop103.v
theories/UncertainQuantile.v
theories/SpecUncertainQuantile.v
theories/UncertainQuantileFacts.v
theories/Prop104.v
theories/UncertainArg.v
theories/SpecUncertainArg.v
theories/UncertainArgFacts.v
theories/Prop105.v
theories/UncertainNonzero.v
theories/SpecUncertainNonzero.v
theories/UncertainNonzeroFacts.v
theories/Prop106.v
theories/UncertainUnravel.v
theories/UncertainUnravelFacts.v
theories/Prop107.v
theories/UncertainLinspace.v
theories/SpecUncertainLinspace.v
theories/UncertainLinspaceFacts.v
theories/Prop108.v
theories/Emath.v
theories/EmathFacts.v
theories/Prop109.v
