-Q theories Verif

theories/Base.v
theories/ModelTags.v
theories/ProofTags.v
theories/PropTags.v
theories/ModelTokenize.v
theories/ProofTokenize.v
theories/PropTokenize.v
theories/ModelXml.v
theories/ModelTei.v
theories/ProofXml.v
theories/SpecTeiRead.v
theories/ProofTeiRead.v
theories/ProofTeiLoad.v
theories/PropTeiRead.v
theories/SpecTeiWrite.v
theories/ProofTeiWrite.v
theories/ProofTeiSave.v
theories/PropTeiWrite.v
theories/ProofTeiRoundtrip.v
theories/ProofTeiPrefix.v
theories/PropTeiRoundtrip.v
theories/PropTeiPrefix.v
theories/ProofTeiSub.v
theories/PropTeiSub.v
theories/ModelTeiDoc.v
theories/SpecTeiDoc.v
theories/ProofTeiDoc.v
theories/PropTeiDoc.v
theories/ModelPostAnnot.v
theories/PropPostAnnot.v
theories/ModelJoined.v
theories/PropJoined.v
theories/ModelClusters.v
theories/PropClusters.v
theories/ModelExtend.v
theories/PropExtend.v
theories/ModelFuzzyMatch.v
theories/PropFuzzyMatch.v
theories/ModelWordMatch.v
theories/PropWordMatch.v
theories/ModelFuzzySearch.v
theories/PropFuzzySearch.v
theories/ModelTarget.v
theories/PropTarget.v
theories/ModelMapping.v
theories/PropMapping.v
theories/ModelChecks.v
theories/PropChecks.v
theories/ModelLineNumbers.v
theories/PropLineNumbers.v
theories/ModelExpand.v
theories/PropExpand.v
theories/ModelSegmentation.v
theories/PropSegmentation.v
theories/ModelReference.v
theories/PropReference.v
theories/PropReferenceDoc.v
theories/ModelFixXml.v
theories/PropFixXml.v
theories/ModelSimpleMatch.v
theories/PropSimpleMatch.v
theories/PropSimpleMarks.v
theories/ModelMatch.v
theories/PropMatch.v
theories/PropMatchRun.v
theories/ModelAnnotators.v
theories/ModelCommands.v
theories/PropAnnotators.v
theories/PropNames.v
theories/PropCommands.v
theories/PropSaves.v
theories/PropCommandRuns.v
theories/ModelSegChecks.v
theories/PropSegChecks.v
theories/PropTotal.v
theories/ModelTargets.v
theories/PropTargets.v
theories/PropChildren.v
theories/ModelRuns.v
theories/ModelFiles.v
theories/PropRuns.v
theories/ModelSource.v
theories/PropSource.v
theories/ModelTagConfigs.v
theories/PropTagConfigs.v
theories/ModelPipeline.v
theories/PropPipeline.v
theories/ModelDownload.v
theories/PropDownload.v
theories/ModelJatsText.v
theories/PropJatsText.v
theories/ModelJats.v
theories/PropJats.v
theories/PropJatsExact.v
theories/PropFiles.v
theories/ModelFixJats.v
theories/ModelArgs.v
theories/PropFixJats.v
theories/PropArgs.v
theories/ModelIni.v
theories/RepoConfig.v
theories/PropIni.v
theories/PropShipped.v
theories/ModelMain.v
theories/PropMain.v
theories/ModelRegex.v
theories/PropRegex.v
theories/PropRegexGrammar.v
theories/PropRegexRun.v
theories/PropRegexParse.v
theories/ModelPatterns.v
theories/PropPatterns.v
theories/PropFinders.v
theories/PropReferences.v
theories/ModelShort.v
theories/PropShort.v
theories/ModelPrefixes.v
theories/PropPrefixes.v
theories/ModelDifflib.v
theories/PropDifflib.v
theories/PropShortValues.v
theories/ModelTools.v
theories/PropTools.v
theories/ModelAttribs.v
theories/PropAttribs.v
theories/ModelXPath.v
theories/PropXPath.v
theories/ModelRequired.v
theories/PropRequired.v
theories/PropShippedPaths.v
theories/ModelJson.v
theories/PropJson.v
theories/PropShippedReads.v
theories/PropCaptions.v
theories/PropFields.v
theories/PropChildFields.v
theories/PropWildFields.v
theories/PropXPathGrammar.v
theories/PropAllOrder.v
theories/ModelReport.v
theories/PropReport.v
theories/ModelRead.v
theories/PropRead.v
theories/ModelHtml.v
theories/PropHtml.v
theories/PropAlike.v
theories/ModelCsv.v
theories/PropCsv.v
theories/PropAlikeSimple.v
theories/PropNeedle.v
theories/PropSubFree.v
theories/PropTagged.v
theories/PropSubPaths.v
theories/PropSettings.v
theories/PropAgain.v
theories/PropBlocks.v
