-Q theories Verif
theories/Base.v
theories/PyList.v
theories/Strategy.v
theories/StrategySpec.v
theories/StrategyProofs.v
theories/StrategyInv.v
theories/StrategyInv2.v
theories/StrategyInv3.v
theories/StrategyInv4.v
theories/StrategyOps.v
theories/StrategySerial.v
theories/PropStrategy.v
theories/ExStrategy.v
theories/Checkpoint.v
theories/PropCheckpoint.v
theories/SRBF.v
theories/SRBFProofs.v
theories/SRBFInv.v
theories/PropSRBF.v
theories/ExSRBF.v
theories/Dycors.v
theories/Pareto.v
theories/ParetoProofs.v
theories/PropPareto.v
theories/SOP.v
theories/SOPProofs.v
theories/SOPCenters.v
theories/SOPInv.v
theories/PropSOP.v
theories/SOPTotal.v
theories/ExSOP.v
theories/Box.v
theories/PropBox.v
theories/FloatBox.v
theories/Cand.v
theories/PropCand.v
theories/EndToEnd.v
theories/ExEndToEnd.v
theories/GA.v
theories/PropGA.v
theories/EIStrat.v
theories/Design.v
theories/PropDesign.v
theories/Lin.v
theories/LinProofs.v
theories/RBF.v
theories/RBFProofs.v
theories/RBFFit.v
theories/PropRBF.v
theories/PropSurr.v
theories/RBFDeriv.v
theories/PosDef.v
theories/PropSolve.v
theories/Problems.v
theories/ProblemSpec.v
theories/ProblemProofs.v
theories/ProblemApprox.v
theories/ProblemSchwefel.v
theories/Hartmann.v
theories/HartmannMin.v
theories/PropProblems.v
theories/Inputs.v
theories/PropInputs.v
theories/RandomStrat.v
theories/SyncRun.v
theories/SRBFRun.v
theories/ExSRBFRun.v
theories/Gauss.v
theories/PropEI.v
theories/RBFEquiv.v
theories/SurrUnits.v
theories/GPWrap.v
theories/StratMap.v
theories/ScaleRun.v
theories/ScaleEI.v
theories/ScaleSOP.v
theories/GAFrac.v
theories/SOPSearch.v
theories/EISerial.v
theories/SOPFeas.v
theories/SyncOrder.v
theories/SyncSRBF.v
theories/SyncEI.v
theories/ResumeKill.v
theories/ResumeSerial.v
theories/ResumeInst.v
theories/Picks.v
theories/PicksSOP.v
theories/Mars.v
theories/SOPAsync.v
theories/SOPSerial.v
theories/ExSOPAsync.v
theories/PointMap.v
theories/UnitsRun.v
theories/RbfPicks.v
theories/UnitsSmall.v
theories/ExUnits.v
theories/UnitsEI.v
theories/UnitsSOP.v
theories/Reach.v
theories/ReachSOP.v
theories/ExReach.v
theories/GAStep.v
theories/RbfPicksSOP.v
theories/SOPRbfRun.v
theories/ExSOPRbfRun.v
theories/ExSOPRbfSerial.v
theories/FloatCand.v
theories/FloatStep.v
theories/FloatUnit.v
theories/Progress.v
theories/FloatSOP.v
theories/BestPoint.v
