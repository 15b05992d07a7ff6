-Q theories Verif
theories/Base.v
theories/Lib.v
theories/TraceUtils.v
theories/Dispatch.v
theories/Tree.v
theories/Program.v
theories/Inference.v
theories/Arrays.v
theories/Resamplers.v
theories/OutDict.v
theories/Utils.v
theories/Spec.v
theories/SpecResample.v
theories/SpecOut.v
theories/SpecUtils.v
theories/BaseFacts.v
theories/KeyFacts.v
theories/SystematicFacts.v
theories/TraceFacts.v
theories/RunFacts.v
theories/RunInv.v
theories/Instances.v
theories/InstancesArr.v
theories/Thm_Traces.v
theories/Prop_Traces.v
theories/Thm_Program.v
theories/Prop_Program.v
theories/Thm_Scope.v
theories/Thm_Out.v
theories/Thm_Utils.v
theories/Thm_Resample.v
theories/Thm_Systematic.v
theories/Thm_Combinators.v
theories/Thm_Session.v
theories/Thm_Debug.v
theories/Thm_Calls.v
theories/Thm_Propose.v
theories/RunEq.v
theories/Prop_Combinators.v
theories/Prop_Resample.v
theories/Prop_Metrics.v
theories/Prop_Out.v
theories/Prop_Utils.v
theories/Prop_Session.v
theories/Annealing.v
theories/SpecAnnealing.v
theories/Thm_Annealing.v
theories/Prop_Annealing.v
theories/Thm_Stats.v
theories/Tempering.v
theories/Prop_Tempering.v
theories/Objectives.v
theories/Prop_Objectives.v
theories/Gibbs.v
theories/Prop_Gibbs.v
theories/Thm_Gibbs.v
theories/SpecGibbs.v
theories/Prop_Decoder.v
theories/Thm_Sweeps.v
theories/Thm_GibbsRun.v
theories/Prop_Sweeps.v
theories/SpecProper.v
theories/Thm_Proper.v
theories/Prop_Proper.v
theories/Propagate.v
theories/SpecPropagate.v
theories/Thm_Propagate.v
theories/Prop_Propagate.v
theories/Prop_Statements.v
theories/Simulator.v
theories/SpecSimulator.v
theories/Prop_Simulator.v
theories/Training.v
theories/Prop_Training.v
theories/Affine.v
theories/Prop_Affine.v
theories/SpecParticles.v
theories/Thm_Particles.v
theories/Thm_Resampled.v
theories/InstancesPop.v
theories/SpecTotal.v
theories/Thm_Total.v
theories/Prop_Total.v
theories/Prop_Particles.v
theories/SpecSampler.v
theories/Thm_Sampler.v
theories/Prop_Sampler.v
theories/Prop_Observed.v
theories/SpecGradient.v
theories/Thm_Gradient.v
theories/Prop_Gradient.v
theories/Floats.v
theories/SpecFloats.v
theories/FloatFacts.v
theories/Prop_Floats.v
theories/Evaluation.v
theories/Prop_Evaluation.v
theories/Runs.v
theories/Prop_Runs.v
theories/TemperingFloats.v
theories/Prop_TemperingFloats.v
theories/Mixture.v
theories/Prop_Mixture.v
theories/Prop_Consistency.v
theories/TrainNvi.v
theories/Prop_TrainNvi.v
theories/SpecGibbsWeight.v
theories/Thm_GibbsWeight.v
theories/Prop_GibbsWeight.v
theories/Networks.v
theories/Prop_Networks.v
theories/Prop_ApgNets.v
theories/SpecLoss.v
theories/Thm_Loss.v
theories/Prop_Loss.v
theories/Prop_Transformed.v
theories/Prop_Leaves.v
theories/ApgReport.v
theories/ApgWitness.v
theories/Prop_ApgReport.v
theories/Modules.v
theories/Prop_Modules.v
theories/Display.v
theories/Prop_Display.v
theories/ApgMain.v
theories/Prop_ApgMain.v
theories/SpecGibbsProper.v
theories/Thm_GibbsProper.v
theories/Thm_SweepsProper.v
theories/Prop_GibbsProper.v
theories/Prop_Algebra.v
theories/Prop_FirstStep.v
theories/SpecKl.v
theories/Prop_Bias.v
theories/SpecBound.v
theories/Thm_Bound.v
theories/Prop_Bound.v
theories/ObjectivesArr.v
theories/SpecElbo.v
theories/Prop_Elbo.v
theories/ApgTrain.v
theories/Prop_ApgTrain.v
theories/Script.v
theories/Prop_Script.v
theories/Viz.v
theories/Prop_Viz.v
theories/Prop_Again.v
theories/SpecMore.v
theories/Thm_More.v
theories/Prop_More.v
theories/SpecNatural.v
theories/Thm_Natural.v
theories/Prop_Natural.v
theories/InstancesGrid.v
theories/Prop_Batches.v
theories/SpecScale.v
theories/Prop_Scale.v
theories/SpecReplay.v
theories/Prop_Replay.v
theories/Prop_SelfPropose.v
theories/Prop_ReplayExtend.v
theories/Prop_SelfExtend.v
