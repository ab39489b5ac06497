-Q theories Verif
theories/BB.v
theories/BBFacts.v
theories/Engine.v
theories/EngineSpec.v
theories/EngineFacts.v
theories/EngineInv.v
theories/EngineSem.v
theories/EngineTerm.v
theories/EngineTotal.v
theories/EngineObs.v
theories/EngineHist.v
theories/PropBB.v
theories/PropEngine.v
theories/EngineMem.v
theories/PropEngineEx.v
theories/TreeIO.v
theories/TreeIOFacts.v
theories/PropTreeIO.v
theories/Expr.v
theories/Kin.v
theories/KinSpec.v
theories/KinFacts.v
theories/KinVel.v
theories/KinVel2.v
theories/PropKin.v
theories/Trig.v
theories/Solver.v
theories/SolverSpec.v
theories/Sympy0.v
theories/SolverFacts.v
theories/SolverInv.v
theories/PropLists.v
theories/PropSolvers.v
theories/PropSolversEx.v
theories/SolverHist.v
theories/HistFacts.v
theories/PropHist.v
theories/PropHistEx.v
theories/PropComplete.v
theories/Soa.v
theories/SoaFacts.v
theories/PropSoa.v
theories/PropEndToEnd.v
theories/EndToEndEx.v
theories/SolSet.v
theories/SolSetFacts.v
theories/PropSolSet.v
theories/SolSetEx.v
theories/CodeGen.v
theories/PropCodeGen.v
theories/CppFacts.v
theories/PropCpp.v
theories/PropEmit.v
theories/CodeGenEx.v
theories/PropLine.v
theories/PropCpp2.v
theories/HashSet.v
theories/PropEq.v
theories/Cache.v
theories/PropCache.v
theories/CacheConc.v
theories/PropConc.v
theories/PropConcEx.v
theories/PyFile.v
theories/PropPy.v
theories/PropPyEx.v
theories/Latex.v
theories/PropLatex.v
theories/Session.v
theories/PropSession.v
theories/PropLatexEx.v
theories/PropCrash.v
theories/PropOnce.v
theories/PropCrashEx.v
theories/Matching.v
theories/PropMatching.v
theories/Robots.v
theories/PropRobots.v
theories/PropReach.v
theories/RobotsEx.v
theories/PropRows.v
theories/PropRowsEx.v
theories/PropExplain.v
theories/PropExplainEx.v
theories/TreeSem.v
theories/PropTree.v
theories/PropTreeEx.v
theories/PropSound.v
theories/PyRun.v
theories/PropPyRun.v
theories/PropPyEnd.v
theories/NumFK.v
theories/PropNumFK.v
theories/PropSqueeze.v
theories/PropRobotKin.v
theories/PropHead.v
theories/FKRun.v
theories/PropFKRun.v
theories/PropMethod.v
theories/PropMethodPy.v
theories/PropReport.v
theories/PropReportEx.v
theories/PropTanUse.v
theories/TexFile.v
theories/PropTexFile.v
theories/Program.v
theories/PropProgram.v
theories/PropProgramEx.v
theories/PropFiles.v
theories/PropFilesEx.v
theories/FkOnly.v
theories/PropFkOnly.v
theories/PropForward.v
theories/PolySimp.v
theories/WristEx.v
theories/PropKill.v
