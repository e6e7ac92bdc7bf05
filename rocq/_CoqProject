-Q theories Verif
theories/PyBase.v
theories/PyFloat_Model.v
theories/CostDecoder_Model.v
theories/CostDecoder_Spec.v
theories/CostDecoder_Proofs.v
theories/Props_CostDecoder.v
theories/RList.v
theories/XReal.v
theories/Costs_Model.v
theories/Costs_Spec.v
theories/Costs_Proofs.v
theories/Props_Costs.v
theories/Displace_Model.v
theories/Displace_Proofs.v
theories/Props_Displace.v
theories/LogMeanExp.v
theories/Dual_Model.v
theories/Dual_Spec.v
theories/Dual_Proofs.v
theories/DualMinimax_Proofs.v
theories/ImpSamp_Model.v
theories/ImpSamp_Spec.v
theories/ImpSamp_Proofs.v
theories/Props_Dual.v
theories/InitGuess_Model.v
theories/InitGuess_Spec.v
theories/InitGuess_Proofs.v
theories/Oracle_Model.v
theories/Oracle_Spec.v
theories/Oracle_Proofs.v
theories/Props_Oracle.v
theories/OptCond_Model.v
theories/OptCond_Spec.v
theories/OptCond_Proofs.v
theories/Props_OptCond.v
theories/Solver_Model.v
theories/Solver_Spec.v
theories/Solver_Proofs.v
theories/Props_Solver.v
theories/Result_Model.v
theories/Result_Proofs.v
theories/Props_Result.v
theories/HybridOpt_Model.v
theories/HybridOpt_Spec.v
theories/HybridOpt_Proofs.v
theories/Props_Hybrid.v
theories/Samplers_Model.v
theories/Samplers_Spec.v
theories/Samplers_Proofs.v
theories/Wrap_Model.v
theories/Wrap_Proofs.v
theories/Props_Samplers.v
theories/NewsV_Model.v
theories/NewsV_Spec.v
theories/NewsV_Proofs.v
theories/Props_NewsV.v
theories/Transport_Spec.v
theories/Transport_Proofs.v
theories/DedProg_Model.v
theories/DedProg_Spec.v
theories/DedLin_Proofs.v
theories/DedLog_Proofs.v
theories/DedPf_Proofs.v
theories/Props_DedProg.v
theories/Tensor.v
theories/Loss_Model.v
theories/Loss_Spec.v
theories/Loss_Proofs.v
theories/Props_Loss.v
theories/Estim_Model.v
theories/Estim_Proofs.v
theories/Predict_Model.v
theories/Predict_Proofs.v
theories/Props_Estim.v
theories/Tuner_Model.v
theories/Tuner_Spec.v
theories/Tuner_Proofs.v
theories/Tuner2_Proofs.v
theories/Props_Tuner.v
theories/EstCond_Model.v
theories/EstCond_Proofs.v
theories/Distrib_Model.v
theories/Props_Distrib.v
theories/Draws_Proofs.v
theories/Props_Draws.v
theories/Measure_Proofs.v
theories/Props_Measure.v
theories/State_Model.v
theories/State_Proofs.v
theories/Props_State.v
theories/DiracX_Model.v
theories/DiracX_Proofs.v
theories/Props_DiracX.v
theories/Study_Model.v
theories/Study_Proofs.v
theories/Props_Study.v
theories/Zeta_Model.v
theories/Zeta_Proofs.v
theories/Props_Zeta.v
theories/Dual2_Proofs.v
theories/Props_Dual2.v
theories/Handover_Proofs.v
theories/Props_Handover.v
theories/TDual_Model.v
theories/TDual_Spec.v
theories/TDual_Proofs.v
theories/Props_TDual.v
theories/EstDual_Model.v
theories/EstDual_Spec.v
theories/EstDual_Proofs.v
theories/Props_EstDual.v
theories/Gradient.v
theories/Grads_Model.v
theories/Grads_Proofs.v
theories/Grads_Losses.v
theories/Props_Grads.v
theories/Stationary_Proofs.v
theories/Props_Stationary.v
theories/Props_StationaryEst.v
theories/InitLabel_Spec.v
theories/InitLabel_Proofs.v
theories/Props_InitLabel.v
theories/SampleLaw_Spec.v
theories/SampleLaw_Proofs.v
theories/Props_SampleLaw.v
theories/Certificate_Spec.v
theories/Certificate_Proofs.v
theories/Props_Certificate.v
theories/Dtype_Model.v
theories/Dtype_Spec.v
theories/Dtype_Proofs.v
theories/Props_Dtype.v
theories/PyFloat_Spec.v
theories/PyFloat_Proofs.v
theories/SolverTrace_Spec.v
theories/SolverTrace_Proofs.v
theories/Weighted_Spec.v
theories/Weighted_Proofs.v
theories/Props_Weighted.v
theories/TDirac_Model.v
theories/TDirac_Proofs.v
theories/Props_TDirac.v
theories/Tests_Proofs.v
theories/Props_Tests.v
theories/Lifecycle_Model.v
theories/Lifecycle_Spec.v
theories/Lifecycle_Proofs.v
theories/Props_Lifecycle.v
theories/Props_Corners.v
theories/Props_Widths.v
theories/OptNorm_Model.v
theories/OptNorm_Proofs.v
theories/Props_OptNorm.v
theories/Clone_Model.v
theories/Props_Clone.v
theories/Score_Model.v
theories/Props_Score.v
theories/Template_Model.v
theories/Props_Template.v
theories/Install_Model.v
theories/Props_Install.v
theories/Props_Misspelt.v
theories/Predictor_Model.v
theories/Props_Predictor.v
theories/Conform_Costs.v
theories/Conform_Values.v
theories/Conform_Objects.v
theories/Conform_Losses.v
theories/AdamW_Proofs.v
theories/Farkas_Proofs.v
theories/Kantorovich_Proofs.v
theories/DedPfC_Proofs.v
theories/Props_AdamW.v
theories/Props_DedPfC.v
theories/Props_Kantorovich.v
theories/Call_Model.v
theories/Call_Proofs.v
theories/Props_Call.v
theories/PfEqual_Proofs.v
theories/Props_PfEqual.v
theories/ExLoss_Model.v
theories/ExLoss_Proofs.v
theories/Props_ExLoss.v
theories/Props_ZeroLabel.v
theories/TutoCost_Model.v
theories/Props_TutoCost.v
theories/TrainLoop_Model.v
theories/Props_TrainLoop.v
theories/EpsStudy_Model.v
theories/EpsStudy_Spec.v
theories/EpsStudy_Proofs.v
theories/Props_EpsStudy.v
theories/Props_Units.v
theories/Suite_Model.v
theories/Suite_Spec.v
theories/Props_Suite.v
theories/Props_Separable.v
theories/Props_Edges.v
theories/Tests_Model.v
theories/Landscape_Model.v
theories/Landscape_Spec.v
theories/Props_Landscape.v
theories/Props_UnitTests.v
theories/TunerGrad_Model.v
theories/TunerGrad_Spec.v
theories/Props_TunerGrad.v
theories/Attain.v
theories/Best_Proofs.v
theories/BestCore.v
theories/Props_Best.v
theories/BestMulti_Proofs.v
theories/Props_BestMulti.v
theories/BestPort_Proofs.v
theories/Props_BestPort.v
theories/AbstractCls_Model.v
theories/Props_AbstractCls.v
theories/PhiLoss_Model.v
theories/PhiLoss_Proofs.v
theories/Props_PhiLoss.v
theories/BestDecision_Proofs.v
theories/Props_BestDecision.v
theories/Multiplier_Proofs.v
theories/Props_Multiplier.v
theories/NeuralNet_Model.v
theories/Props_NeuralNet.v
theories/CritLog_Proofs.v
theories/Props_CritLog.v
theories/Props_CritLin.v
theories/Props_Rigid.v
theories/Props_Tight.v
theories/ClassComp_Model.v
theories/Props_ClassComp.v
theories/Tags_Model.v
theories/Props_Tags.v
theories/Props_PowLim.v
theories/Props_FitOk.v
