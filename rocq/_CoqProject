-Q theories Verif
theories/Base.v
theories/Constraints.v
theories/Regex.v
theories/Parser.v
theories/PackageParser.v
theories/Package.v
theories/AssignmentSet.v
theories/MiniSat.v
theories/Policy.v
theories/PolicySim.v
theories/SpecAset.v
theories/SpecSat.v
theories/AssignmentProofs.v
theories/SatInv.v
theories/SatProp.v
theories/SatAnalyze.v
theories/SatBack.v
theories/SatLearn.v
theories/SatRecord.v
theories/SatSearch.v
theories/SatMain.v
theories/SatLex.v
theories/PolicyProofs.v
theories/PolicySimProofs.v
theories/SatDefs.v
theories/PropSat.v
theories/PropPolicy.v
theories/PropAset.v
theories/Sorting.v
theories/SortUniq.v
theories/Repository.v
theories/Pool.v
theories/Request.v
theories/Graph.v
theories/Rules.v
theories/Transaction.v
theories/DepSolver.v
theories/SpecConstraints.v
theories/SpecParser.v
theories/SpecPretty.v
theories/SpecInstall.v
theories/ConstraintProofs.v
theories/PropConstraints.v
theories/RepositoryProofs.v
theories/PropRepo.v
theories/PoolProofs.v
theories/PropPool.v
theories/PropRequest.v
theories/TopoProofs.v
theories/ReachProofs.v
theories/BfsProofs.v
theories/PropGraph.v
theories/PropMus.v
theories/ParserProofs.v
theories/ScanProofs.v
theories/ReqProofs.v
theories/RulesProofs.v
theories/RulesLoop.v
theories/RulesSem.v
theories/RulesMain.v
theories/PropRules.v
theories/PropStrict.v
theories/SpecSolve.v
theories/SolveProofs.v
theories/TransProofs.v
theories/PrettyProofs.v
theories/PropTrans.v
theories/PruneProofs.v
theories/FinalProofs.v
theories/TwinProofs.v
theories/SolveMain.v
theories/PropSolve.v
theories/SolveTotal.v
theories/PropTotal.v
theories/SpecCheck.v
theories/PropLimits.v
theories/PropHint.v
theories/PropOps.v
theories/SpecApi.v
theories/PropApi.v
theories/Deps.v
theories/SpecDeps.v
theories/PropDeps.v
theories/Report.v
theories/ReportProofs.v
theories/SpecReport.v
theories/RulesAttrib.v
theories/PropReport.v
theories/PropParser.v
theories/PropNames.v
theories/PropAgain.v
theories/PropKeep.v
theories/SatGuided.v
theories/PolicyGuided.v
theories/PropNewest.v
theories/Session.v
theories/SpecSession.v
theories/SessionProofs.v
theories/PropSession.v
theories/PropEqual.v
theories/PropDet.v
theories/PackageParserProofs.v
theories/PropPretty.v
theories/VanDerWaerden.v
theories/PropWaerden.v
theories/SpecLog.v
theories/PolicyLog.v
theories/LogProofs.v
theories/LogText.v
theories/SpecLogText.v
theories/LogTextProofs.v
theories/PropLog.v
theories/SpecDimacs.v
theories/Dimacs.v
theories/External.v
theories/SpecExternal.v
theories/ExternalProofs.v
theories/DimacsProofs.v
theories/PropDimacs.v
theories/Scenario.v
theories/SpecScenario.v
theories/ScenarioProofs.v
theories/PropScenario.v
theories/SpecText.v
theories/PropText.v
theories/Texts.v
theories/PropTexts.v
theories/PropNeed.v
theories/PropMono.v
theories/SatAgree.v
theories/Unrelated.v
theories/PropUnrelated.v
theories/PropLock.v
theories/Iterables.v
theories/PropOnce.v
theories/PropCrash.v
theories/PropHistory.v
theories/PropFlags.v
theories/Reuse.v
theories/PropReuse.v
theories/RepoIter.v
theories/PropIter.v
theories/OrdDict.v
theories/PropDict.v
theories/Composer.v
theories/SpecComposer.v
theories/PropComposer.v
theories/Values.v
theories/PropValues.v
theories/Selection.v
theories/PropSelect.v
theories/PropExternal.v
theories/PropLogText.v
theories/SpecChoice.v
theories/PropChoice.v
theories/SpecJson.v
theories/PropKey.v
theories/Release.v
theories/PropRelease.v
theories/TestUtils.v
theories/SpecTestUtils.v
theories/PropTestUtils.v
theories/ModifierObj.v
theories/PropModifierObj.v
theories/SpecJsonValue.v
theories/ComposerFile.v
theories/SpecComposerFile.v
theories/PropComposerFile.v
theories/Timing.v
theories/PropTiming.v
theories/PropEnds.v
