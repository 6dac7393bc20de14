-Q theories Verif
theories/Np.v
theories/ModelGauss.v
theories/Model.v
theories/ModelWidth.v
theories/ModelExact.v
theories/ModelDebug.v
theories/ModelSort.v
theories/ModelUtil.v
theories/Database.v
theories/ModelDb.v
theories/ModelExp.v
theories/ModelPrint.v
theories/ModelOpt.v
theories/ModelSelf.v
theories/ModelFloat.v
theories/ModelTests.v
theories/ModelSuite.v
theories/ModelDraw.v
theories/Spec.v
theories/AlgSpec.v
theories/FloatSpec.v
theories/QSpec.v
theories/SortSpec.v
theories/PrintSpec.v
theories/TestSpec.v
theories/NumeralSpec.v
theories/Lib.v
theories/BitFacts.v
theories/Cone.v
theories/ElimFacts.v
theories/QFacts.v
theories/StepFacts.v
theories/ForkFacts.v
theories/GroupFacts.v
theories/LevelFacts.v
theories/Graph.v
theories/SolveFacts.v
theories/AnyFacts.v
theories/ElimProps.v
theories/StepSpec.v
theories/Check.v
theories/SolverProps.v
theories/Witness.v
theories/QuestionProps.v
theories/QWitness.v
theories/ReduceProps.v
theories/WidthFacts.v
theories/WidthProps.v
theories/PartProps.v
theories/SortFacts.v
theories/MaxFacts.v
theories/SortWitness.v
theories/MaxFix.v
theories/MaxIdem.v
theories/SortProps.v
theories/UtilProps.v
theories/MaxAssert.v
theories/Conference.v
theories/LinAlg.v
theories/Det.v
theories/Spectrum.v
theories/DetRing.v
theories/CharPoly.v
theories/DbProps.v
theories/Sharp.v
theories/DrawProps.v
theories/FloatFacts.v
theories/FloatProps.v
theories/FloatDet.v
theories/TestProps.v
theories/Greatest.v
theories/ExpProps.v
theories/PrintProps.v
theories/Numeral.v
theories/Layout.v
theories/DebugProps.v
theories/DebugSpec.v
theories/DebugChar.v
theories/Settled.v
theories/StepProps.v
theories/Levels.v
theories/SuiteProps.v
theories/ClassSpec.v
theories/ClassData.v
theories/PruneData.v
theories/Orderly.v
theories/Classes.v
theories/Exact.v
theories/Opt.v
theories/Outside.v
theories/AnyArgs.v
theories/EveryLine.v
theories/Filter.v
theories/SelfProps.v
theories/Total.v
theories/TotalProps.v
theories/WideElim.v
theories/WideProps.v
theories/TurnSpec.v
theories/Turns.v
theories/ModelScreen.v
theories/ScreenProps.v
theories/SeedProps.v
theories/ElimMore.v
theories/NoStop.v
theories/OddArgs.v
theories/ModelHeap.v
theories/HeapSpec.v
theories/HeapProps.v
theories/ModelRepr.v
theories/ReprSpec.v
theories/ReprProps.v
theories/ModelHeapq.v
theories/HeapqSpec.v
theories/HeapqProps.v
theories/ModelGen.v
theories/GenProps.v
theories/ForkGen.v
theories/ModelNumpy2.v
theories/Numpy2Props.v
theories/ModelPart.v
theories/PartGen.v
theories/Stack.v
theories/Numpy2More.v
theories/Properties.v
