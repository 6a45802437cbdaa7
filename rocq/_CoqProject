-Q theories Verif
theories/Base.v
theories/ModelUtil.v
theories/ModelBitField.v
theories/ModelCharReach.v
theories/ModelLiteral.v
theories/ModelReport.v
theories/ModelPetgraph.v
theories/ModelParser.v
theories/ModelNfa.v
theories/ModelSmallWrite.v
theories/ModelCompiler.v
theories/ModelDump.v
theories/SpecSet.v
theories/ProofBase.v
theories/ProofBitField.v
theories/ProofBitField2.v
theories/ProofCharReach.v
theories/PropSet.v
theories/PropUtil.v
theories/ProofLiteral.v
theories/PropLiteral.v
theories/SpecReport.v
theories/ProofReport.v
theories/PropReport.v
theories/SpecTrie.v
theories/ProofTrie.v
theories/ProofLimits.v
theories/PropTrie.v
theories/SpecGrammar.v
theories/ProofGrammar.v
theories/ProofParser.v
theories/ProofTree.v
theories/ProofVerb.v
theories/PropParser.v
theories/SpecTree.v
theories/ProofShortcut.v
theories/PropShortcut.v
theories/SpecGraph.v
theories/ProofGraph.v
theories/PropGraph.v
theories/SpecCompile.v
theories/ProofCompile.v
theories/ProofRun.v
theories/PropCompile.v
theories/PropEngine.v
theories/SpecReference.v
theories/PropReference.v
theories/SpecTarget.v
theories/PropTarget.v
theories/ModelPinned.v
theories/SpecPinned.v
theories/PropPinned.v
theories/ModelHash.v
theories/SpecHash.v
theories/PropHash.v
theories/ModelWriter.v
theories/SpecWriter.v
theories/PropWriter.v
theories/ModelDebug.v
theories/SpecDebug.v
theories/PropDebug.v
theories/SpecDoc.v
theories/PropDoc.v
theories/SpecClass.v
theories/PropClass.v
theories/ModelStack.v
theories/SpecStack.v
theories/PropStack.v
theories/ModelFlags.v
theories/SpecOptions.v
theories/PropOptions.v
theories/SpecVisit.v
theories/ProofVisit.v
theories/PropVisit.v
theories/SpecDump.v
theories/ProofDump.v
theories/ProofDump2.v
theories/ProofDump3.v
theories/PropDump.v
theories/ProofDump4.v
theories/SpecLang.v
theories/ProofLang.v
theories/PropLang.v
theories/SpecText.v
theories/ProofText.v
theories/PropMisc.v
theories/SpecConfig.v
theories/ProofConfig.v
theories/PropConfig.v
theories/SpecOrder.v
theories/ProofOrder.v
theories/PropOrder.v
theories/SpecBuild.v
theories/ProofBuild.v
theories/PropBuild.v
theories/SpecFlags.v
theories/PropFlags.v
theories/SpecStore.v
theories/PropStore.v
theories/SpecWords.v
theories/PropWords.v
theories/Tests.v
theories/ModelBytes.v
theories/SpecUtf8.v
theories/ProofBytes.v
theories/PropBytes.v
theories/ModelAdjacency.v
theories/SpecAdjacency.v
theories/ProofAdjacency.v
theories/PropAdjacency.v
theories/ModelBitVec.v
theories/SpecBitVec.v
theories/ProofBitVec.v
theories/PropBitVec.v
theories/ModelFmt.v
theories/SpecFmt.v
theories/ProofFmt.v
theories/PropFmt.v
theories/ModelRust.v
theories/ModelInterp.v
theories/ModelSource.v
theories/SpecSource.v
theories/ProofSourceA.v
theories/ProofSourceB.v
theories/ProofSourceC.v
theories/ProofSourceD.v
theories/ProofSourceE.v
theories/ProofSourceF.v
theories/ProofSourceG.v
theories/ProofSourceH.v
theories/ProofSourceI.v
theories/ProofSourceJ.v
theories/PropSource.v
theories/ProofSourceK.v
theories/ProofSourceL.v
theories/ProofSourceM.v
theories/ProofSourceN.v
theories/ProofSourceO.v
theories/ProofSourceP.v
theories/ProofSourceQ.v
theories/PropSourceParse.v
theories/SpecSourceCrate.v
theories/ProofSourceR.v
theories/ProofSourceS.v
theories/ProofSourceT.v
theories/PropSourceCrate.v
theories/ProofSourceU.v
theories/ProofSourceV.v
theories/ProofSourceW.v
theories/ProofSourceX.v
theories/ProofSourceY.v
theories/PropSourceBuild.v
theories/ProofSourceZ.v
theories/ProofSourceZA.v
theories/ProofSourceZB.v
theories/ProofSourceZC.v
theories/ProofSourceZD.v
theories/PropSourceCompile.v
theories/ProofSourceZE.v
theories/ProofSourceZF.v
theories/ProofSourceZG.v
theories/ProofSourceZH.v
theories/ProofSourceZI.v
theories/PropSourceGraph.v
