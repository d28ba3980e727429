-Q theories Verif
theories/Base.v
theories/Source.v
theories/Publisher.v
theories/Context.v
theories/ParserCore.v
theories/VarName.v
theories/Expr.v
theories/DslTable.v
theories/ExampleTables.v
theories/SpecPeg.v
theories/SpecProgram.v
theories/Programs.v
theories/ProofBasics.v
theories/ProofPeg.v
theories/ProofSound.v
theories/ProofFuel.v
theories/ProofComplete.v
theories/ProofTree.v
theories/ProofTree2.v
theories/SpecCfg.v
theories/SpecSafe.v
theories/ProofSafe.v
theories/SpecSession.v
theories/SpecKernel.v
theories/SpecLR.v
theories/SpecTerm.v
theories/ProofLR.v
theories/ProofTerm.v
theories/ProofPegTotal.v
theories/TheoremsKernel.v
theories/TheoremsPackrat.v
theories/Checks.v
theories/TheoremsTotal.v
theories/TheoremsLR.v
theories/Stratify.v
theories/SpecExamples.v
theories/TheoremsExamples.v
theories/TheoremsLimits.v
theories/GenTree.v
theories/SymbolTable.v
theories/CycleDetector.v
theories/BinaryWo.v
theories/Constructor.v
theories/Generator.v
theories/SpecCode.v
theories/DslSources.v
theories/SpecDsl.v
theories/ProofTrace.v
theories/ProofDsl.v
theories/SpecCompile.v
theories/ProofBuild.v
theories/ProofRules.v
theories/ProofSymbols.v
theories/SpecUtf8.v
theories/ProofUtf8.v
theories/SpecLeft.v
theories/ProofGraph.v
theories/ProofLeft.v
theories/SpecGenerator.v
theories/ProofGenerate.v
theories/SpecEmit.v
theories/ProofEmit.v
theories/ProofDslComplete.v
theories/ProofDslUnique.v
theories/ProofDslSize.v
theories/ProofGenTotal.v
theories/TheoremsGenerator.v
theories/SpecMeaning.v
theories/ProofMeaning.v
theories/TheoremsMeaning.v
theories/ProofFirst.v
theories/TheoremsTermination.v
theories/DslReader.v
theories/ProofReader.v
theories/GrammarChecks.v
theories/ShippedNames.v
theories/TheoremsBootstrap.v
theories/Runner.v
theories/TheoremsRunner.v
theories/TheoremsHook.v
theories/SpecDeriv.v
theories/TheoremsDeriv.v
theories/SpecLRTree.v
theories/ProofLRTree.v
theories/TheoremsLRTree.v
theories/Render.v
theories/SpecRust.v
theories/CrateSources.v
theories/ProofRender.v
theories/ProofText.v
theories/TheoremsText.v
theories/SpecExact.v
theories/ProofExact.v
theories/TheoremsExact.v
theories/SpecCalc.v
theories/Calc.v
theories/ProofArith.v
theories/ProofUnambiguous.v
theories/ProofCalcPeg.v
theories/ProofCalcTree.v
theories/ProofCalcSound.v
theories/TheoremsCalc.v
theories/SpecKeys.v
theories/ProofKeys.v
theories/TheoremsKeys.v
theories/ProofSize.v
theories/TheoremsSize.v
theories/TheoremsJson.v
theories/ProofRanks.v
theories/TheoremsGenKeys.v
theories/SpecCycle.v
theories/ProofCycle.v
theories/TheoremsCycle.v
theories/TheoremsCycleExamples.v
theories/SpecPrint.v
theories/TheoremsPrint.v
theories/SpecAccepted.v
theories/ProofAccepted.v
theories/Tool.v
theories/SpecTool.v
theories/TheoremsTool.v
theories/TheoremsToolExamples.v
theories/Release.v
theories/Borrow.v
theories/TheoremsRelease.v
theories/TheoremsBorrow.v
theories/SpecCycleTree.v
theories/ProofCycleTree.v
theories/TheoremsCycleTree.v
theories/Letters.v
theories/TheoremsCycleTreeExamples.v
theories/SpecLevels.v
theories/ProofLevels.v
theories/TheoremsLevels.v
theories/TheoremsLevelsExamples.v
theories/TheoremsLevelsOrder.v
theories/TheoremsLevelsTotal.v
theories/Assumptions.v
