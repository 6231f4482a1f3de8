-Q theories Verif
theories/Base.v
theories/ModelTypes.v
theories/ModelEarley.v
theories/ModelTrees.v
theories/SpecTypes.v
theories/SpecGrammar.v
theories/SpecTree.v
theories/ProofEqual.v
theories/ProofChart.v
theories/ProofSound.v
theories/ProofComplete.v
theories/ProofTerm.v
theories/ProofOrder.v
theories/ProofTree.v
theories/ProofTreeOk.v
theories/ProofTreeSet.v
theories/ProofTreeDup.v
theories/ModelText.v
theories/ModelApi.v
theories/SpecApi.v
theories/ProofApi.v
theories/ProofApiLoops.v
theories/ProofTreeApi.v
theories/ProofMain.v
theories/ProofApiMain.v
theories/ProofExtract.v
theories/Examples.v
theories/ProofRefute.v
theories/ProofWitness.v
theories/ProofEmpty.v
theories/ExamplesEmpty.v
theories/PropChart.v
theories/PropTrees.v
theories/PropApi.v
theories/PropEqual.v
theories/ModelQuote.v
theories/ModelMatch.v
theories/ModelTermType.v
theories/ModelSem.v
theories/SpecMatch.v
theories/ProofMatch.v
theories/PropMatch.v
theories/SpecSem.v
theories/ProofSem.v
theories/ProofNodes.v
theories/ProofSemMain.v
theories/ExamplesSem.v
theories/PropSem.v
theories/ModelReader.v
theories/ModelGrammar.v
theories/ProofUtf8.v
theories/SpecNotation.v
theories/ProofReader.v
theories/ProofReaderSafe.v
theories/ProofReaderBack.v
theories/ProofReaderMain.v
theories/SpecRefine.v
theories/ProofRefine.v
theories/SpecConstruct.v
theories/ProofFuel.v
theories/ProofGrammar.v
theories/ProofReaderHang.v
theories/ProofConstruct.v
theories/ProofNumber.v
theories/ExamplesGrammar.v
theories/ProofConstructRefute.v
theories/SpecChars.v
theories/ProofChars.v
theories/PropReader.v
theories/PropGrammar.v
theories/ModelString.v
theories/SpecString.v
theories/ProofString.v
theories/ProofStringRead.v
theories/ProofStringContext.v
theories/ProofStringExact.v
theories/ExamplesString.v
theories/PropString.v
theories/SpecIndex.v
theories/ProofIndex.v
theories/ModelFrames.v
theories/SpecFrames.v
theories/ProofFrames.v
theories/ProofSlots.v
theories/ExamplesFrames.v
theories/PropFrames.v
theories/ModelLocal.v
theories/SpecLocal.v
theories/ProofLocal.v
theories/ProofLocalMatch.v
theories/ProofLocalApi.v
theories/ExamplesLocal.v
theories/PropLocal.v
theories/SpecFrameFmr.v
theories/ProofFrameFmr.v
theories/ProofFrameFirst.v
theories/ExamplesFrameFmr.v
theories/PropFrameFmr.v
theories/SpecEnd.v
theories/ProofEnd.v
theories/ExamplesEnd.v
theories/PropEnd.v
theories/SpecNode.v
theories/ProofNode.v
theories/ExamplesNode.v
theories/PropNode.v
theories/ModelFuncs.v
theories/SpecFuncs.v
theories/ProofFuncs.v
theories/ExamplesFuncs.v
theories/PropFuncs.v
theories/SpecText.v
theories/ProofTrim.v
theories/ProofText.v
theories/PropText.v
theories/ModelMath.v
theories/SpecMath.v
theories/ProofMath.v
theories/SpecRound.v
theories/ProofRound.v
theories/ExamplesMath.v
theories/SpecDecimal.v
theories/ProofFloat.v
theories/ProofDecimal.v
theories/ProofDecimalCalc.v
theories/ProofDecimalText.v
theories/ExamplesDecimal.v
theories/PropMath.v
theories/PropDecimal.v
theories/SpecTreeOrder.v
theories/SpecTreeEdge.v
theories/ProofTreeOrder.v
theories/ProofTreeMissing.v
theories/ProofDepth.v
theories/ProofTreeEdge.v
theories/ExamplesTree.v
theories/ExamplesTreeEdge.v
theories/PropTreeOrder.v
theories/ModelPrint.v
theories/SpecPrint.v
theories/ProofQuote.v
theories/ProofPrint.v
theories/ProofPrintParse.v
theories/ExamplesPrint.v
theories/PropPrint.v
theories/ModelShared.v
theories/SpecShared.v
theories/ProofShared.v
theories/PropShared.v
theories/ModelMutate.v
theories/SpecMutate.v
theories/ProofMutate.v
theories/ProofRace.v
theories/PropMutate.v
theories/SpecSize.v
theories/ProofSize.v
theories/PropSize.v
theories/ModelShipped.v
theories/SpecShipped.v
theories/ProofRecognize.v
theories/ProofLoads.v
theories/ProofShipped.v
theories/ProofShippedMain.v
theories/ExamplesLoads.v
theories/ExamplesShipped.v
theories/PropLoads.v
theories/PropShipped.v
theories/SpecMeaning.v
theories/ProofMeaning.v
theories/ProofMeaningCalls.v
theories/ProofMeaningEasy.v
theories/ProofUnique.v
theories/SpecArith.v
theories/ProofArith.v
theories/ProofArithLeft.v
theories/ProofArithCalls.v
theories/ModelProgram.v
theories/SpecProgram.v
theories/ProofProgram.v
theories/ExamplesArith.v
theories/ExamplesEasy.v
theories/ProofArithRefute.v
theories/PropMeaning.v
theories/PropUnique.v
theories/PropArith.v
theories/ModelExamples.v
theories/SpecExamples.v
theories/ProofSayings.v
theories/ProofExamples.v
theories/ExamplesPrograms.v
theories/PropExamples.v
theories/SpecPrintNotation.v
theories/ProofPrintNotation.v
theories/ProofShippedUsable.v
theories/ExamplesHomophones.v
theories/ProofShippedClash.v
theories/ProofExamplesFiles.v
theories/ModelInit.v
theories/SpecInit.v
theories/ProofInit.v
theories/ExamplesInit.v
theories/PropInit.v
theories/ModelContext.v
theories/SpecContext.v
theories/ProofContext.v
theories/ExamplesContext.v
theories/PropContext.v
theories/SpecFormula.v
theories/ProofFormula.v
theories/ProofFormulaJs.v
theories/ExamplesFormula.v
theories/PropFormula.v
theories/SpecMany.v
theories/ProofMany.v
theories/ExamplesMany.v
theories/PropMany.v
theories/SpecFrameText.v
theories/ProofFrameText.v
theories/ProofFrameWords.v
theories/ExamplesFrameText.v
theories/PropFrameText.v
theories/SpecWorth.v
theories/ProofWorth.v
theories/ProofWorthCalls.v
theories/SpecLeast.v
theories/ProofLeast.v
theories/ProofLeastCalls.v
theories/ProofLeastExists.v
theories/SpecEnglish.v
theories/ProofEnglish.v
theories/ProofReadings.v
theories/ProofEnglishRules.v
theories/ProofEnglishCalls.v
theories/ExamplesEnglish.v
theories/ProofEnglishRefute.v
theories/PropEnglish.v
theories/SpecChinese.v
theories/ProofChinese.v
theories/ProofChineseRules.v
theories/ProofChineseCalls.v
theories/ExamplesChinese.v
theories/ProofChineseRefute.v
theories/PropChinese.v
theories/ModelReport.v
theories/SpecReport.v
theories/ProofReport.v
theories/ProofReportPlace.v
theories/ProofReportLocal.v
theories/ExamplesReport.v
theories/PropReport.v
theories/SpecNames.v
theories/ProofNames.v
theories/ExamplesNames.v
theories/PropNames.v
theories/SpecWordArith.v
theories/ProofWordArith.v
theories/ProofWordArithRules.v
theories/ProofWordArithCalls.v
theories/ProofLeastFormula.v
theories/ProofWordArithLeft.v
theories/ProofWordArithLeftCalls.v
theories/ExamplesWordArith.v
theories/ProofWordArithRefute.v
theories/PropWordArith.v
theories/ExamplesLeast.v
theories/PropLeast.v
theories/ModelMessages.v
theories/SpecMessages.v
theories/ProofMessages.v
theories/ProofMessagesCalls.v
theories/ExamplesMessages.v
theories/PropMessages.v
theories/SpecCnNum.v
theories/ProofCnNum.v
theories/ProofCnNumRules.v
theories/ProofCnNumCalls.v
theories/ExamplesCnNum.v
theories/ProofCnNumRefute.v
theories/PropCnNum.v
theories/SpecSpoken.v
theories/ProofSpoken.v
theories/ProofSpokenRules.v
theories/ProofSpokenCalls.v
theories/ProofSpokenUsual.v
theories/ProofSpokenLeast.v
theories/ProofSpokenUsualCalls.v
theories/ExamplesSpoken.v
theories/ProofSpokenRefute.v
theories/PropSpoken.v
theories/SpecChineseArith.v
theories/ProofChineseArith.v
theories/ProofChineseArithRules.v
theories/ProofChineseArithCalls.v
theories/ProofChineseArithLeft.v
theories/ProofChineseArithLeftCalls.v
theories/ExamplesChineseArith.v
theories/ProofChineseArithRefute.v
theories/PropChineseArith.v
