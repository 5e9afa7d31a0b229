-Q theories Verif
theories/Activation.v
theories/ActivationBundle.v
theories/ActivationProofs.v
theories/ActivationProofs2.v
theories/ActivationProofs3.v
theories/ActivationProofs4.v
theories/AggBundle.v
theories/AggProofs.v
theories/AggProofs2.v
theories/Aggregated.v
theories/Base.v
theories/BenchProofs.v
theories/BenchProofs2.v
theories/Benchmark.v
theories/Console.v
theories/ConsoleFll.v
theories/ConsoleProofs.v
theories/Cpp.v
theories/CppAgain.v
theories/CppAtoms.v
theories/CppBundle.v
theories/CppExact.v
theories/CppProgram.v
theories/CppRun.v
theories/CppSyntax.v
theories/Defuzz.v
theories/DefuzzBisector.v
theories/DefuzzBundle.v
theories/DefuzzF64.v
theories/DefuzzReal.v
theories/DefuzzSelect.v
theories/DegreeProofs.v
theories/Discrete.v
theories/DiscreteBundle.v
theories/DiscreteProofs.v
theories/DiscreteProofs2.v
theories/Engine.v
theories/EngineBundle.v
theories/EngineF64.v
theories/EngineProofs.v
theories/EngineProofs2.v
theories/EngineProofs3.v
theories/EngineProofs4.v
theories/EngineReady.v
theories/F64.v
theories/F64Arith.v
theories/F64Centroid.v
theories/F64Err.v
theories/F64Facts.v
theories/F64Quot.v
theories/F64Sum.v
theories/Factory.v
theories/FactoryProofs.v
theories/Fcl.v
theories/FclBundle.v
theories/FclRound.v
theories/FclRound2.v
theories/FclRound3.v
theories/FclRound4.v
theories/FclSame.v
theories/FclText.v
theories/Fis.v
theories/Fis2Bundle.v
theories/FisAgain.v
theories/FisBundle.v
theories/FisCases.v
theories/FisF64.v
theories/FisRound.v
theories/FisRound2.v
theories/FisRound3.v
theories/FisRound4.v
theories/FisRound5.v
theories/FisRule.v
theories/FisRule2.v
theories/FisRule3.v
theories/FisText.v
theories/FldBundle.v
theories/FldProofs.v
theories/FldProofs2.v
theories/FldRead.v
theories/FldRead2.v
theories/FldReal.v
theories/Fll.v
theories/FllBundle.v
theories/FllExport.v
theories/FllF64.v
theories/FllFix.v
theories/FllImported.v
theories/FllLines.v
theories/FllReject.v
theories/FllRound.v
theories/FllRound2.v
theories/FllSame.v
theories/FllText.v
theories/Function.v
theories/FunctionMeaning.v
theories/FunctionProofs.v
theories/FunctionProofs2.v
theories/FunctionTable.v
theories/Fuzzify.v
theories/FuzzifyBundle.v
theories/FuzzifyProofs.v
theories/GradeBundle.v
theories/GradeCase.v
theories/GradeEngine.v
theories/GradeF64.v
theories/GradeLine.v
theories/GradeSet.v
theories/GradeValue.v
theories/Grid.v
theories/GridProofs.v
theories/Hedge.v
theories/HedgeBundle.v
theories/HedgeErr.v
theories/HedgeProofs.v
theories/ImportProofs.v
theories/InferBundle.v
theories/InferCase.v
theories/InferProofs.v
theories/Java.v
theories/JavaBundle.v
theories/JavaProofs.v
theories/Legacy.v
theories/LegacyProofs.v
theories/LimitMamdani.v
theories/LimitMax.v
theories/LimitProofs.v
theories/LimitRiemann.v
theories/MamdaniCase.v
theories/MamdaniF64.v
theories/MaxOrder.v
theories/Norm.v
theories/NormAlg.v
theories/NormBundle.v
theories/NormErr.v
theories/NormErrCase.v
theories/NormF64.v
theories/NormFacts.v
theories/NormProofs.v
theories/NormSpec.v
theories/Op.v
theories/OpProofs.v
theories/OpProofs2.v
theories/OrdVal.v
theories/PropActivation.v
theories/PropAgg.v
theories/PropBenchmark.v
theories/PropConsole.v
theories/PropCpp.v
theories/PropDataset.v
theories/PropDefuzz.v
theories/PropDiscrete.v
theories/PropEngine.v
theories/PropExact.v
theories/PropFactory.v
theories/PropFcl.v
theories/PropFis.v
theories/PropFis2.v
theories/PropFll.v
theories/PropFunction.v
theories/PropFuzzify.v
theories/PropGrade.v
theories/PropGrid.v
theories/PropHedge.v
theories/PropImport.v
theories/PropInfer.v
theories/PropJava.v
theories/PropLegacy.v
theories/PropLimit.v
theories/PropMamdani.v
theories/PropNorm.v
theories/PropNormErr.v
theories/PropOp.v
theories/PropRound.v
theories/PropRscript.v
theories/PropRule.v
theories/PropSession.v
theories/PropSound.v
theories/PropStat.v
theories/PropSugeno.v
theories/PropSwitch.v
theories/PropTerm.v
theories/PropText.v
theories/PropUnion.v
theories/PropVariable.v
theories/Rscript.v
theories/RscriptProofs.v
theories/Rule.v
theories/RuleBundle.v
theories/RuleProofs.v
theories/RuleProofs2.v
theories/RuleProofs3.v
theories/SessionCase.v
theories/SessionProofs.v
theories/Shape.v
theories/ShapeBundle.v
theories/ShapeDoc.v
theories/ShapeF64.v
theories/ShapeFacts.v
theories/ShapeMono.v
theories/ShapeRange.v
theories/ShapeSym.v
theories/SoundBundle.v
theories/SoundCase.v
theories/SoundProofs.v
theories/SpecActivation.v
theories/SpecAgg.v
theories/SpecConsole.v
theories/SpecCpp.v
theories/SpecDataset.v
theories/SpecDefuzz.v
theories/SpecDegree.v
theories/SpecDiscrete.v
theories/SpecEngine.v
theories/SpecExact.v
theories/SpecFactory.v
theories/SpecFcl.v
theories/SpecFis.v
theories/SpecFis2.v
theories/SpecFld.v
theories/SpecFll.v
theories/SpecFormula.v
theories/SpecFuzzify.v
theories/SpecGrade.v
theories/SpecGrid.v
theories/SpecImport.v
theories/SpecInfer.v
theories/SpecJava.v
theories/SpecLegacy.v
theories/SpecLimit.v
theories/SpecMamdani.v
theories/SpecNorm.v
theories/SpecNormErr.v
theories/SpecRound.v
theories/SpecRscript.v
theories/SpecRule.v
theories/SpecSession.v
theories/SpecSound.v
theories/SpecStat.v
theories/SpecSugeno.v
theories/SpecSwitch.v
theories/SpecTerm.v
theories/SpecText.v
theories/SpecUnion.v
theories/SpecVar.v
theories/StatProofs.v
theories/SugenoCase.v
theories/SugenoF64.v
theories/SugenoF64b.v
theories/SugenoF64c.v
theories/SwitchProofs.v
theories/Text.v
theories/TextF64.v
theories/TextProofs.v
theories/TextProofs2.v
theories/Var.v
theories/VarProofs.v
theories/XR.v
theories/XRFacts.v
