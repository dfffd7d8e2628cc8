-Q theories Verif
theories/Base.v
theories/SMap.v
theories/Num.v
theories/ModelTypes.v
theories/ModelPoseGraph.v
theories/SpecPoseGraph.v
theories/SpecPGHist.v
theories/ProofsPoseGraph.v
theories/ProofsPGHist.v
theories/ProofsPGData.v
theories/ProofsLaplacian.v
theories/ProofsPGMain.v
theories/ProofsPGCex.v
theories/PropPoseGraph.v
theories/NumFloat.v
theories/RSum.v
theories/ModelProblem.v
theories/ModelChordal.v
theories/SpecCost.v
theories/ProofsCost.v
theories/ProofsCost2.v
theories/ProofsCost3.v
theories/ProofsCost4.v
theories/ProofsChordal.v
theories/ProofsCostEx.v
theories/PropCost.v
theories/ModelRobust.v
theories/SpecRobust.v
theories/ProofsRobust.v
theories/ProofsRobustEx.v
theories/PropRobust.v
theories/Det.v
theories/ModelPoses.v
theories/ModelSolver.v
theories/SpecSolver.v
theories/MatR.v
theories/ProofsSolver.v
theories/ProofsGnc.v
theories/ProofsGnc2.v
theories/ProofsSolverEx.v
theories/PropSolver.v
theories/ProofsPoses.v
theories/ProofsOdom.v
theories/ProofsPosesEx.v
theories/PropPoses.v
theories/ModelAgent.v
theories/SpecAgent.v
theories/ProofsAgent.v
theories/ProofsAgent2.v
theories/ProofsAgent3.v
theories/ProofsAgent4.v
theories/ProofsAgent5.v
theories/ProofsIterate.v
theories/ProofsAgent6.v
theories/ProofsAgentEx.v
theories/ProofsIterateEx.v
theories/PropAgent.v
theories/SpecFrames.v
theories/ProofsFrames.v
theories/ProofsFrames2.v
theories/ProofsResidual.v
theories/SpecRobustPgo.v
theories/ProofsRobustPgo.v
theories/ProofsRobustPgo2.v
theories/ProofsRobustPgoEx.v
theories/PropRobustPgo.v
theories/ProofsFrames3.v
theories/ProofsFramesEx.v
theories/PropFrames.v
theories/ProofsAccel.v
theories/PropAccel.v
theories/ModelOptimizer.v
theories/SpecOptimizer.v
theories/ProofsOptimizer.v
theories/ProofsOptimizerEx.v
theories/PropOptimizer.v
theories/ModelIO.v
theories/SpecIO.v
theories/SpecIO2.v
theories/ProofsIO.v
theories/ProofsQuat.v
theories/ProofsIO2.v
theories/ProofsIO3.v
theories/ProofsIO4.v
theories/ProofsIOEx.v
theories/PropIO.v
theories/ModelExample.v
theories/SpecExample.v
theories/ProofsExample.v
theories/ProofsExample2.v
theories/ProofsExample3.v
theories/PropExample.v
theories/ModelThreads.v
theories/SpecThreads.v
theories/ProofsThreads.v
theories/ProofsThreads2.v
theories/ProofsThreadsEx.v
theories/PropThreads.v
theories/ModelInit.v
theories/SpecInit.v
theories/ProofsInit.v
theories/ProofsInit2.v
theories/ProofsInit3.v
theories/ProofsInit4.v
theories/ProofsInitEx.v
theories/PropInit.v
theories/SpecStatus.v
theories/ProofsStatus.v
theories/ProofsStatusEx.v
theories/PropStatus.v
theories/PropIterate.v
theories/ModelExampleRun.v
theories/SpecRun.v
theories/ProofsRun.v
theories/ProofsRun2.v
theories/ProofsRun3.v
theories/ProofsRun4.v
theories/ProofsRun5.v
theories/ProofsRun6.v
theories/ProofsRun7.v
theories/ProofsRun8.v
theories/ProofsRun9.v
theories/ProofsRunEx.v
theories/PropRun.v
theories/ModelVariable.v
theories/SpecVariable.v
theories/ProofsVariable.v
theories/ProofsVariableEx.v
theories/PropVariable.v
theories/ModelAlign.v
theories/SpecAlign.v
theories/ProofsAngle.v
theories/ProofsAlign.v
theories/ProofsAlignEx.v
theories/PropAlign.v
theories/ModelPrograms.v
theories/ProofsPrograms.v
theories/ProofsProgramsEx.v
theories/PropPrograms.v
theories/ModelLog.v
theories/SpecLog.v
theories/ProofsLog.v
theories/ProofsLog2.v
theories/ProofsLogEx.v
theories/PropLog.v
theories/SpecQuantile.v
theories/ProofsQuantile.v
theories/ProofsQuantileUse.v
theories/PropQuantile.v
theories/ModelTeam.v
theories/SpecTeam.v
theories/ProofsTeam.v
theories/ProofsTeam2.v
theories/ProofsTeam3.v
theories/ProofsTeamEx.v
theories/PropTeam.v
theories/SpecDescent.v
theories/ProofsDescent.v
theories/ProofsDescent2.v
theories/ProofsDescentEx.v
theories/PropDescent.v
theories/SpecReweight.v
theories/ProofsReweight.v
theories/ProofsReweightEx.v
theories/PropReweight.v
theories/SpecData.v
theories/ProofsData.v
theories/ProofsDataEx.v
theories/PropData.v
theories/SpecLate.v
theories/ProofsLate.v
theories/ProofsLate2.v
theories/PropLate.v
theories/ModelSparseFile.v
theories/SpecSparseFile.v
theories/ProofsSparseFile.v
theories/PropSparseFile.v
