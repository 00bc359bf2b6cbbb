-Q theories Verif

theories/Base.v
theories/C01.v
theories/C02.v
theories/C03.v
theories/C04.v
theories/C05.v
theories/C06.v
theories/C07.v
theories/C08.v
theories/C09.v
theories/C10.v
theories/C100.v
theories/C101.v
theories/C102.v
theories/C103.v
theories/C104.v
theories/C105.v
theories/C106.v
theories/C107.v
theories/C108.v
theories/C109.v
theories/C11.v
theories/C110.v
theories/C111.v
theories/C112.v
theories/C113.v
theories/C114.v
theories/C115.v
theories/C116.v
theories/C117.v
theories/C118.v
theories/C119.v
theories/C12.v
theories/C120.v
theories/C121.v
theories/C122.v
theories/C123.v
theories/C124.v
theories/C125.v
theories/C126.v
theories/C127.v
theories/C128.v
theories/C129.v
theories/C13.v
theories/C130.v
theories/C131.v
theories/C132.v
theories/C133.v
theories/C134.v
theories/C135.v
theories/C136.v
theories/C137.v
theories/C138.v
theories/C139.v
theories/C14.v
theories/C140.v
theories/C141.v
theories/C142.v
theories/C143.v
theories/C144.v
theories/C145.v
theories/C146.v
theories/C147.v
theories/C148.v
theories/C15.v
theories/C16.v
theories/C17.v
theories/C18.v
theories/C19.v
theories/C20.v
theories/C21.v
theories/C22.v
theories/C23.v
theories/C24.v
theories/C25.v
theories/C26.v
theories/C27.v
theories/C28.v
theories/C29.v
theories/C30.v
theories/C31.v
theories/C32.v
theories/C33.v
theories/C34.v
theories/C35.v
theories/C36.v
theories/C37.v
theories/C38.v
theories/C39.v
theories/C40.v
theories/C41.v
theories/C42.v
theories/C43.v
theories/C44.v
theories/C45.v
theories/C46.v
theories/C47.v
theories/C48.v
theories/C49.v
theories/C50.v
theories/C51.v
theories/C52.v
theories/C53.v
theories/C54.v
theories/C55.v
theories/C56.v
theories/C57.v
theories/C58.v
theories/C59.v
theories/C60.v
theories/C61.v
theories/C62.v
theories/C63.v
theories/C64.v
theories/C65.v
theories/C66.v
theories/C67.v
theories/C68.v
theories/C69.v
theories/C70.v
theories/C71.v
theories/C72.v
theories/C73.v
theories/C74.v
theories/C75.v
theories/C76.v
theories/C77.v
theories/C78.v
theories/C79.v
theories/C80.v
theories/C81.v
theories/C82.v
theories/C83.v
theories/C84.v
theories/C85.v
theories/C86.v
theories/C87.v
theories/C88.v
theories/C89.v
theories/C90.v
theories/C91.v
theories/C92.v
theories/C93.v
theories/C94.v
theories/C95.v
theories/C96.v
theories/C97.v
theories/C98.v
theories/C99.v
theories/M_A2C.v
theories/M_A3C.v
theories/M_A3CAsync.v
theories/M_ABC.v
theories/M_Acer.v
theories/M_AcerHeads.v
theories/M_AcerKL.v
theories/M_AcerLoss.v
theories/M_ActionValue.v
theories/M_Actor.v
theories/M_ActorCritic.v
theories/M_ActorLearner.v
theories/M_ActorProc.v
theories/M_Async.v
theories/M_AsyncEval.v
theories/M_AtariStack.v
theories/M_Batch.v
theories/M_BatchStates.v
theories/M_Boltzmann.v
theories/M_Bounded.v
theories/M_CG.v
theories/M_Categorical.v
theories/M_ClipGrad.v
theories/M_CopyParam.v
theories/M_DPP.v
theories/M_DQN.v
theories/M_DistLoss.v
theories/M_Dueling.v
theories/M_EmpNorm.v
theories/M_Episodic.v
theories/M_EvalRec.v
theories/M_Evaluator.v
theories/M_Explorers.v
theories/M_FloatAction.v
theories/M_FloatCategorical.v
theories/M_FloatCopy.v
theories/M_FloatNorm.v
theories/M_FloatSchedule.v
theories/M_FloatTree.v
theories/M_Hogwild.v
theories/M_Hooks.v
theories/M_IQN.v
theories/M_Initializers.v
theories/M_LineSearch.v
theories/M_Loop.v
theories/M_Losses.v
theories/M_Mode.v
theories/M_Modules.v
theories/M_Monitor.v
theories/M_Nets.v
theories/M_NoisyLinear.v
theories/M_OU.v
theories/M_OffPolicy.v
theories/M_OutDir.v
theories/M_PAL.v
theories/M_PPO.v
theories/M_PPOAgent.v
theories/M_PPOData.v
theories/M_PPOLoss.v
theories/M_PPOUpdate.v
theories/M_Persistent.v
theories/M_PolicyLoss.v
theories/M_Pretrained.v
theories/M_PrioUpdate.v
theories/M_Prioritized.v
theories/M_PriorityWeights.v
theories/M_Pruner.v
theories/M_QuadHead.v
theories/M_Quadratic.v
theories/M_RMSprop.v
theories/M_RandomAccessQueue.v
theories/M_RecDQN.v
theories/M_Recurrent.v
theories/M_Reinforce.v
theories/M_ReplayBuffer.v
theories/M_RewardFilter.v
theories/M_SampleNK.v
theories/M_Saving.v
theories/M_Scores.v
theories/M_Stats.v
theories/M_TB.v
theories/M_Targets.v
theories/M_Train.v
theories/M_TrainEval.v
theories/M_VecA2C.v
theories/M_VecAgents.v
theories/M_VecLoop.v
theories/M_VectorEnv.v
theories/M_Watch.v
theories/M_Wrappers.v
theories/P_A2C.v
theories/P_A3C.v
theories/P_A3CAsync.v
theories/P_Acer.v
theories/P_AcerLoss.v
theories/P_Actor.v
theories/P_ActorCritic.v
theories/P_ActorGradient.v
theories/P_ActorLearner.v
theories/P_Async.v
theories/P_AsyncEval.v
theories/P_Base.v
theories/P_Batch.v
theories/P_BatchEval.v
theories/P_CG.v
theories/P_Categorical.v
theories/P_DPP.v
theories/P_DistIteration.v
theories/P_DistLoss.v
theories/P_EmpNorm.v
theories/P_Episodic.v
theories/P_EvalRec.v
theories/P_Evaluator.v
theories/P_Explorers.v
theories/P_FittedTargets.v
theories/P_FloatAction.v
theories/P_FloatB64.v
theories/P_FloatCategorical.v
theories/P_FloatCopy.v
theories/P_FloatNorm.v
theories/P_FloatSchedule.v
theories/P_FloatTree.v
theories/P_Hogwild.v
theories/P_Importance.v
theories/P_Loop.v
theories/P_Modules.v
theories/P_Noisy.v
theories/P_OffPolicy.v
theories/P_PPO.v
theories/P_PPOAgent.v
theories/P_PPOData.v
theories/P_PPOLoss.v
theories/P_Persistent.v
theories/P_PolicyEvaluation.v
theories/P_PolicyGradient.v
theories/P_PolicyImprovement.v
theories/P_PrioUpdate.v
theories/P_Prioritized.v
theories/P_PrioritizedEpisodic.v
theories/P_PrioritizedProps.v
theories/P_PriorityTree.v
theories/P_PriorityWeights.v
theories/P_RandomAccessQueue.v
theories/P_RecDQN.v
theories/P_Recurrent.v
theories/P_RecurrentState.v
theories/P_Reinforce.v
theories/P_ReplayBuffer.v
theories/P_SampleNK.v
theories/P_Saving.v
theories/P_Targets.v
theories/P_Train.v
theories/P_TrainBatch.v
theories/P_Unbiased.v
theories/P_Uniform.v
theories/P_ValueIteration.v
theories/P_VecA2C.v
theories/P_VecAgents.v
theories/P_VecLoop.v
theories/P_VecPPO.v
theories/P_VectorEnv.v
theories/P_Wrappers.v
theories/S_A2C.v
theories/S_A3C.v
theories/S_A3CAsync.v
theories/S_Acer.v
theories/S_AcerHeads.v
theories/S_AcerLoss.v
theories/S_Actor.v
theories/S_ActorCritic.v
theories/S_ActorGradient.v
theories/S_ActorLearner.v
theories/S_Async.v
theories/S_AsyncEval.v
theories/S_Batch.v
theories/S_CG.v
theories/S_Categorical.v
theories/S_CopyParam.v
theories/S_DistIteration.v
theories/S_DistLoss.v
theories/S_EmpNorm.v
theories/S_Episodic.v
theories/S_EvalRec.v
theories/S_Evaluator.v
theories/S_FloatCategorical.v
theories/S_FloatCopy.v
theories/S_FloatNorm.v
theories/S_FloatTree.v
theories/S_Hogwild.v
theories/S_Importance.v
theories/S_Initializers.v
theories/S_LineSearch.v
theories/S_Loop.v
theories/S_Losses.v
theories/S_Modules.v
theories/S_OffPolicy.v
theories/S_PPO.v
theories/S_PPOAgent.v
theories/S_PPOData.v
theories/S_PPOLoss.v
theories/S_Persistent.v
theories/S_PolicyEvaluation.v
theories/S_PolicyGradient.v
theories/S_PolicyImprovement.v
theories/S_PrioUpdate.v
theories/S_Prioritized.v
theories/S_PriorityWeights.v
theories/S_Quadratic.v
theories/S_RMSprop.v
theories/S_RandomAccessQueue.v
theories/S_RecDQN.v
theories/S_Recurrent.v
theories/S_Reinforce.v
theories/S_ReplayBuffer.v
theories/S_RewardFilter.v
theories/S_SampleNK.v
theories/S_Saving.v
theories/S_Targets.v
theories/S_Train.v
theories/S_TrainEval.v
theories/S_Unbiased.v
theories/S_Uniform.v
theories/S_ValueIteration.v
theories/S_VecA2C.v
theories/S_VecAgents.v
theories/S_VecLoop.v
theories/S_VectorEnv.v
theories/S_Wrappers.v
theories/Vec.v
