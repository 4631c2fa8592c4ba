-Q theories Verif
theories/Base/Num.v
theories/Base/Py.v
theories/Base/Arr.v
theories/Model/Ext.v
theories/Model/Cdist.v
theories/Model/Reweight.v
theories/Model/Score.v
theories/Model/ScoreTorch.v
theories/Model/DPFC.v
theories/Model/TDPFC.v
theories/Spec/FlowSpec.v
theories/Lib/ArrLemmas.v
theories/Lib/FlowLemmas.v
theories/Lib/ScoreLemmas.v
theories/Lib/StepLemmas.v
theories/Lib/RunLemmas.v
theories/Lib/StochLemmas.v
theories/Lib/CoreLemmas.v
theories/Run/Toy.v
theories/Props/Flows.v
theories/Spec/RunSpec.v
theories/Props/Runs.v
theories/Props/Grid.v
theories/Spec/TotalSpec.v
theories/Lib/TotalLemmas.v
theories/Props/Total.v
theories/Spec/QuerySpec.v
theories/Lib/QueryLemmas.v
theories/Lib/Pointwise.v
theories/Props/Queries.v
theories/Lib/RBase.v
theories/Spec/RealSpec.v
theories/Lib/RSum.v
theories/Spec/Contracts.v
theories/Spec/RangeSpec.v
theories/Props/QueriesR.v
theories/Lib/RMat.v
theories/Spec/KernelSpec.v
theories/Lib/Gauss.v
theories/Props/CdistProps.v
theories/Lib/KernelForms.v
theories/Lib/Estimator.v
theories/Lib/Rkhs.v
theories/Lib/EstForms.v
theories/Props/Kernels.v
theories/Props/Estimators.v
theories/Props/Symmetry.v
theories/Props/TorchEst.v
theories/Spec/ReweightSpec.v
theories/Lib/ReweightLemmas.v
theories/Props/Reweighting.v
theories/Lib/AnyScale.v
theories/Props/ScoresR.v
theories/Spec/ScoreSpec.v
theories/Lib/LP.v
theories/Lib/PlanExists.v
theories/Spec/TorchSpec.v
theories/Lib/TorchLemmas.v
theories/Run/RealExt.v
theories/Props/Torch.v
theories/Props/TorchQueries.v
theories/Props/TorchR.v
theories/Props/TorchReweighting.v
theories/Model/Imports.v
theories/Props/ImportProps.v
theories/Props/Stability.v
theories/Spec/StreamSpec.v
theories/Props/Stream.v
theories/Props/TorchStream.v
theories/Spec/CausalSpec.v
theories/Props/Causal.v
theories/Props/Witnesses.v
theories/Spec/AffineSpec.v
theories/Lib/Sim.v
theories/Lib/AffineLemmas.v
theories/Lib/AffineScore.v
theories/Lib/AffineSteps.v
theories/Lib/AffineRun.v
theories/Props/Affine.v
theories/Run/Double.v
theories/Props/DoubleGrid.v
theories/Lib/TAffineScore.v
theories/Lib/TAffineSteps.v
theories/Lib/TAffineRun.v
theories/Props/TAffine.v
theories/Spec/TTotalSpec.v
theories/Lib/TTotalLemmas.v
theories/Props/TTotal.v
theories/Props/DoubleGridTorch.v
theories/Props/TorchReweightingW.v
theories/Props/Boxes.v
theories/Props/Diffusion.v
theories/Model/Controlled.v
theories/Spec/ControlledSpec.v
theories/Props/Controlled.v
theories/Run/PartialReal.v
theories/Props/Undefined.v
theories/Spec/LabelSpec.v
theories/Lib/LabelLemmas.v
theories/Lib/LabelRun.v
theories/Props/Label.v
theories/Lib/TLabel.v
theories/Props/TLabel.v
theories/Spec/PeriodicSpec.v
theories/Lib/KEst.v
theories/Lib/Periodic.v
theories/Props/Periodic.v
theories/Model/LimitCycle.v
theories/Spec/LimitCycleSpec.v
theories/Props/LimitCycle.v
theories/Props/LimitCycleODE.v
theories/Model/Kuramoto.v
theories/Spec/KuramotoSpec.v
theories/Spec/OscSpec.v
theories/Lib/KuramotoLemmas.v
theories/Lib/KuramotoTotal.v
theories/Props/Kuramoto.v
theories/Props/KuramotoSim.v
theories/Props/Oscillators.v
theories/Props/KuramotoR.v
theories/Props/KuramotoCut.v
theories/Props/KuramotoWitness.v
theories/Model/Examples.v
theories/Model/CellFate.v
theories/Spec/ExampleSpec.v
theories/Spec/CellFateSpec.v
theories/Lib/CellFateLemmas.v
theories/Props/ExampleSystems.v
theories/Props/GaussScores.v
theories/Props/Phenotype.v
theories/Props/CellFate.v
theories/Model/Pice.v
theories/Spec/PiceSpec.v
theories/Spec/PiceContracts.v
theories/Lib/Ginv.v
theories/Lib/PiceLemmas.v
theories/Props/Pice.v
theories/Props/PiceFacts.v
theories/Props/Covered.v
theories/Spec/DoubleSpec.v
theories/Lib/DoubleLemmas.v
theories/Run/DoubleExp.v
theories/Props/DoubleWeights.v
theories/Props/DoubleQueries.v
theories/Props/DoubleKernels.v
theories/Props/DoubleAccuracy.v
theories/Props/DoubleRuns.v
theories/Lib/NaNLemmas.v
theories/Props/DoubleNaN.v
theories/Props/DoubleNaNW.v
theories/Lib/TNaNLemmas.v
theories/Props/DoubleNaNTorch.v
theories/Props/DoubleWitness.v
theories/Props/DoubleEdge.v
theories/Props/DoubleEdgeW.v
theories/Spec/RoundSpec.v
theories/Lib/RoundLemmas.v
theories/Props/DoubleSteps.v
theories/Props/DoubleStepsW.v
theories/Spec/FollowSpec.v
theories/Props/Follow.v
theories/Props/FollowW.v
theories/Spec/FeedbackSpec.v
theories/Props/Feedback.v
theories/Props/FeedbackW.v
theories/Model/DoubleWell.v
theories/Props/DoubleWell.v
theories/Spec/NearbySpec.v
theories/Props/Nearby.v
theories/Props/NearbyW.v
theories/Spec/ForgetSpec.v
theories/Props/Forget.v
theories/Props/ForgetW.v
