{
 "claims": [
  {
   "property": "C01",
   "status": "proved",
   "theorems": [
    "C01_raq_refines_list"
   ],
   "note": "Full refinement of every public operation to a bounded list."
  },
  {
   "property": "C02",
   "status": "proved",
   "theorems": [
    "C02_value_error",
    "C02_distinct",
    "C02_terminates",
    "C02_queue_sample"
   ],
   "note": "numpy.random.choice is an oracle constrained by its documented contract; termination under a fair generator."
  },
  {
   "property": "C03",
   "status": "proved",
   "theorems": [
    "C03_tree_is_fifo_list",
    "C03_sum",
    "C03_min",
    "C03_buffer_refines",
    "C03_capacity"
   ],
   "note": "Trees for an arbitrary aggregation; sum/min over exact rationals; whole buffer refined to parallel lists."
  },
  {
   "property": "C04",
   "status": "proved",
   "theorems": [
    "C04_single_draw",
    "C04_many_draws"
   ],
   "note": "Exact rational arithmetic; numpy's uniform(0,s) is s*f with f an arbitrary rational in [0,1)."
  },
  {
   "property": "C05",
   "status": "proved",
   "theorems": [
    "C05_update",
    "C05_new_element",
    "C05_sample_while_pending",
    "C05_update_without_sample"
   ],
   "note": "For the default wait_priority_after_sampling=True, or without uniform mixing."
  },
  {
   "property": "C06",
   "status": "partial",
   "theorems": [
    "C06_append_between_refuted",
    "C06_append_between_no_eviction_partial"
   ],
   "note": "REFUTED as stated: an append at capacity between sample and set_last_priority misassigns priorities. True without eviction."
  },
  {
   "property": "C07",
   "status": "proved",
   "theorems": [
    "C07_crash_recovery",
    "C07_reported_limit"
   ],
   "note": "Byte-level model of index/data files, chunk rotation, sessions; crash = prefix of the trace of single effects, excluding the meta file write (see C56). Assumes pickle round trip, crc32 in range, sizes below 2^64; comm_size 1."
  },
  {
   "property": "C08",
   "status": "partial",
   "theorems": [
    "C08_newest_data_refuted",
    "C08_chain_that_fits_partial",
    "C08_near_ancestor_partial",
    "C08_unbounded_with_ancestor_refuted"
   ],
   "note": "REFUTED (grand-ancestor's whole chunk hides the nearer ancestor; maxlen None raises TypeError). Proved for chains that fit in maxlen and when the nearest ancestor suffices."
  },
  {
   "property": "C09",
   "status": "proved",
   "theorems": [
    "C09_replay_buffer_windows",
    "C09_prioritized_windows",
    "C09_per_environment"
   ],
   "note": "ReplayBuffer and PrioritizedReplayBuffer; any interleaving of environments."
  },
  {
   "property": "C10",
   "status": "proved",
   "theorems": [
    "C10_in_step"
   ],
   "note": "Full statement for every history and capacity."
  },
  {
   "property": "C11",
   "status": "partial",
   "theorems": [
    "C11_persistent_episodic_refuted",
    "C11_contents",
    "C11_in_step_partial"
   ],
   "note": "REFUTED as stated: the persistent stores evict independently. Exact contents proved; agreement proved while nothing is evicted."
  },
  {
   "property": "C12",
   "status": "partial",
   "theorems": [
    "C12_restores",
    "C12_after_load",
    "C12_capacity_refuted",
    "C12_capacity_partial",
    "C12_episodic_restores_partial"
   ],
   "note": "Restoring is proved; the capacity part is REFUTED: a loaded buffer adopts the capacity of the saved one. Holds if that is not larger."
  },
  {
   "property": "C13",
   "status": "proved",
   "theorems": [
    "C13_batch",
    "C13_terminal_windows"
   ],
   "note": "Exact rationals; batch_states/phi applied elementwise."
  },
  {
   "property": "C14",
   "status": "proved",
   "theorems": [
    "C14_schedule",
    "C14_schedule_episodic",
    "C14_constructor"
   ],
   "note": "update_func arbitrary as long as it leaves stored experiences alone; generator by contract."
  },
  {
   "property": "C15",
   "status": "proved",
   "theorems": [
    "C15_block",
    "C15_short",
    "C15_every_block_possible",
    "C15_sample_episodes",
    "C15_independent"
   ],
   "note": "numpy randint as an oracle with its contract."
  },
  {
   "property": "C16",
   "status": "proved",
   "theorems": [
    "C16_train_agent",
    "C16_train_agent_returns"
   ],
   "note": "User code (environment, agent, hooks, evaluator) is arbitrary and may raise; protocol given as an automaton."
  },
  {
   "property": "C17",
   "status": "proved",
   "theorems": [
    "C17_train_agent_batch",
    "C17_train_agent_batch_returns"
   ],
   "note": "User code arbitrary; the vectorized environment answers for every member. The counter is advanced at least once (the loop tests at the end)."
  },
  {
   "property": "C18",
   "status": "proved",
   "theorems": [
    "C18_async_training"
   ],
   "note": "All schedules at the granularity of shared-memory accesses; at least one step and one process; user code arbitrary and may raise; the user may set the stop/exception events at any time."
  },
  {
   "property": "C19",
   "status": "partial",
   "theorems": [
    "C19_resume_refuted",
    "C19_resume_partial"
   ],
   "note": "REFUTED: the shared counter starts at 0 whatever step_offset is. Partial: the numbers are always 1,2,..., and a complete run makes at least `steps` further steps."
  },
  {
   "property": "C20",
   "status": "proved",
   "theorems": [
    "C20_evaluator",
    "C20_mean"
   ],
   "note": "For every sequence of calls, arbitrary evaluation scores and hooks that may raise. Float arithmetic exact; statistics.median/stdev/max/min columns not modelled."
  },
  {
   "property": "C21",
   "status": "proved",
   "theorems": [
    "C21_async_evaluator"
   ],
   "note": "All interleavings of any number of workers at the granularity of lock sections; the shared max is stored through an arbitrary monotone idempotent rounding function."
  },
  {
   "property": "C22",
   "status": "proved",
   "theorems": [
    "C22_n_episodes",
    "C22_n_steps",
    "C22_protocol",
    "C22_returns",
    "C22_single"
   ],
   "note": "Ledger of episodes in order of start computed from what the environments answered. n_steps needs n >= 1. Exact rationals."
  },
  {
   "property": "C23",
   "status": "partial",
   "theorems": [
    "C23_fresh_state_refuted",
    "C23_single_partial",
    "C23_batch_partial"
   ],
   "note": "REFUTED: with n_steps and a single environment the next evaluation run starts with the state left over from the truncated episode. Proved for n_episodes and for batch evaluation."
  },
  {
   "property": "C24",
   "status": "proved",
   "theorems": [
    "C24_results",
    "C24_results_close",
    "C24_no_deadlock",
    "C24_terminates"
   ],
   "note": "Environment methods are total in the model (a raising environment kills its worker); pipes are unbounded FIFO channels."
  },
  {
   "property": "C25",
   "status": "proved",
   "theorems": [
    "C25_frame_stack",
    "C25_vector_frame_stack"
   ],
   "note": "A stacked observation is modelled as the list of its frames (concatenation along an axis is not modelled)."
  },
  {
   "property": "C26",
   "status": "proved",
   "theorems": [
    "C26_step",
    "C26_reset"
   ],
   "note": ""
  },
  {
   "property": "C27",
   "status": "partial",
   "theorems": [
    "C27_step_partial",
    "C27_frame_refuted"
   ],
   "note": "REFUTED: if the episode ends before the last two steps of the skip window, the frame returned is stale (pixel maximum of frames from an earlier call). Proved: calls made, reward sum, done, needs_reset, info; and the frame when all skip >= 2 steps were executed."
  },
  {
   "property": "C28",
   "status": "partial",
   "theorems": [
    "C28_reset_partial",
    "C28_first_reset_partial",
    "C28_step",
    "C28_reset_refuted"
   ],
   "note": "REFUTED: reset() ignores that its own no-op step ended the game, so the following reset() does not reset the finished game; and reset() directly after a real reset resets again. Proved: the rule for every reset() that follows a step, the first reset, and when a step reports done."
  },
  {
   "property": "C29",
   "status": "proved",
   "theorems": [
    "C29_normalize",
    "C29_normalize_bijective",
    "C29_normalize_wrapper",
    "C29_scale_reward",
    "C29_clip_reward",
    "C29_randomize"
   ],
   "note": "Exact rationals for floats."
  },
  {
   "property": "C30",
   "status": "proved",
   "theorems": [
    "C30_select",
    "C30_linear",
    "C30_linear_zero_steps",
    "C30_exponential",
    "C30_gaussian",
    "C30_ou"
   ],
   "note": "Exact rationals for floats; random numbers are arguments."
  },
  {
   "property": "C31",
   "status": "proved",
   "theorems": [
    "C31_gae",
    "C31_lambda_one",
    "C31_per_episode"
   ],
   "note": "Exact rationals for floats; value predictions are inputs."
  },
  {
   "property": "C32",
   "status": "proved",
   "theorems": [
    "C32_limit",
    "C32_minibatches",
    "C32_minibatches_total",
    "C32_subsets"
   ],
   "note": "The shuffles are arbitrary permutations supplied as a list."
  },
  {
   "property": "C33",
   "status": "proved",
   "theorems": [
    "C33_updates",
    "C33_exactly_once",
    "C33_segments"
   ],
   "note": "Recurrent states attached to transitions and the keys added by the dataset construction are not modelled; the training calls alternate act/observe on a fixed number of environments."
  },
  {
   "property": "C34",
   "status": "proved",
   "theorems": [
    "C34_returns",
    "C34_gae"
   ],
   "note": "Exact rationals for floats; value predictions are inputs."
  },
  {
   "property": "C35",
   "status": "partial",
   "theorems": [
    "C35_resume_refuted",
    "C35_resume_partial"
   ],
   "note": "REFUTED: with a positive offset the storage is never allocated and the first act raises AttributeError; proved: offset zero, and continuing an agent in memory with its own step count."
  },
  {
   "property": "C36",
   "status": "partial",
   "theorems": [
    "C36_return_refuted",
    "C36_coefficients_partial"
   ],
   "note": "REFUTED: the coefficient of the t-th action is r_{t+1}+...+r_T+r_T; the exact coefficients are proved for every history."
  },
  {
   "property": "C37",
   "status": "partial",
   "theorems": [
    "C37_dqn",
    "C37_double_dqn",
    "C37_iqn",
    "C37_td3",
    "C37_sac",
    "C37_ddpg_refuted",
    "C37_ddpg_partial"
   ],
   "note": "Proved for DQN, Double DQN, IQN, TD3 and SAC; REFUTED for DDPG, which uses gamma in place of gamma^n (proved for one-step windows). Non-recurrent models."
  },
  {
   "property": "C38",
   "status": "proved",
   "theorems": [
    "C38_projection",
    "C38_mean_kept",
    "C38_categorical_dqn",
    "C38_categorical_double_dqn",
    "C38_target_mean"
   ],
   "note": "exact rationals; evenly spaced support of n >= 2 atoms (what the agents construct); values y and probabilities arbitrary of length n. Includes the linear-interpolation formula per atom and the targets of CategoricalDQN and CategoricalDoubleDQN"
  },
  {
   "property": "C39",
   "status": "proved",
   "theorems": [
    "C39_statistics",
    "C39_until",
    "C39_frozen",
    "C39_order",
    "C39_forward"
   ],
   "note": "Real numbers for floats, one coordinate at a time; uses the axioms of Coq's real numbers."
  },
  {
   "property": "C40",
   "status": "proved",
   "theorems": [
    "C40_schedule",
    "C40_evaluation",
    "C40_training",
    "C40_per_env"
   ],
   "note": "For DQN, DDPG, TD3 and SAC, which share the loop; recurrent states are not modelled. The step count, schedule and evaluation theorems need no protocol; the transition theorems assume act/observe alternate in training mode."
  },
  {
   "property": "C41",
   "status": "proved",
   "theorems": [
    "C41_save",
    "C41_roundtrip"
   ],
   "note": "Agents, modules, DataParallel wrappers and None attributes in an object graph; files as a map from paths to states. Attributes of the loaded agent that share a module are assumed to correspond to equal states in the saved one."
  },
  {
   "property": "C42",
   "status": "proved",
   "theorems": [
    "C42_projection"
   ],
   "note": "ACER's efficient trust-region projection, over exact rationals: the projected gradient meets the linearised KL bound and no other feasible gradient is closer."
  },
  {
   "property": "C43",
   "status": "proved",
   "theorems": [
    "C43_line_search"
   ],
   "note": "TRPO line search with oracle policy evaluations: on success KL and gain conditions hold, otherwise the parameters are restored. 'Not below' is in the sense of float comparison, so a NaN old gain is not above anything."
  },
  {
   "property": "C44",
   "status": "partial",
   "theorems": [
    "C44_value",
    "C44_greedy_in_bounds",
    "C44_max_partial",
    "C44_max_refuted"
   ],
   "note": "REFUTED: with a correlated precision matrix and mu outside the box, clipping mu does not maximise the quadratic action value over the box (C44_max_refuted). Proved: the value formula, the greedy action lies in the bounds, and it is the maximiser when mu is inside the box or the matrix is diagonal (C44_max_partial)."
  },
  {
   "property": "C45",
   "status": "partial",
   "theorems": [
    "C45_hard",
    "C45_soft_partial",
    "C45_soft_refuted",
    "C45_tied_refuted"
   ],
   "note": "REFUTED: a soft update leaves entries of non-float dtype uncopied, and mixes a storage shared by two names twice. Proved: hard copies are exact; soft updates mix every float entry of models without shared storages once."
  },
  {
   "property": "C46",
   "status": "proved",
   "theorems": [
    "C46_each_once",
    "C46_order",
    "C46_sorted_place",
    "C46_pack_sequence",
    "C46_pack_recursive",
    "C46_unwrap_wrap",
    "C46_wrap_unwrap",
    "C46_info",
    "C46_no_info",
    "C46_one_step_batch"
   ],
   "note": "torch's pack_sequence is modelled from its documentation. Elements that are Python None are left out by flatten (C46_each_once states it)."
  },
  {
   "property": "C47",
   "status": "proved",
   "theorems": [
    "C47_linear",
    "C47_one_step"
   ],
   "note": "Exact rationals; numpy's interp modelled for two points."
  },
  {
   "property": "C48",
   "status": "partial",
   "theorems": [
    "C48_refuted",
    "C48_exact_partial",
    "C48_no_overflow_partial"
   ],
   "note": "REFUTED: update_errors runs outside the replay buffer lock; when the poller drops the oldest transition of a full buffer between sampling and writing, the priority goes to another transition, and the sampled one keeps weight zero. Proved under every schedule: the written transition is exactly the one k places later, k the number dropped since sampling, so the update is right iff nothing was dropped. One index per learner step; finer interleavings inside one tree write are not modelled."
  },
  {
   "property": "C49",
   "status": "proved",
   "theorems": [
    "C49_buffer_weights",
    "C49_normalized_weights",
    "C49_unnormalized_weights",
    "C49_beta_schedule",
    "C49_beta_constant",
    "C49_priorities",
    "C49_priorities_monotone",
    "C49_clipping"
   ],
   "note": "Real arithmetic (stdlib real-number axioms). C49_buffer_weights connects the weight formula to every reachable buffer: the probabilities delivered by sample() are at least the reported minimum, which is positive."
  },
  {
   "property": "C50",
   "status": "partial",
   "theorems": [
    "C50_flat_memory_refuted",
    "C50_accounting_partial",
    "C50_storing_never_fails"
   ],
   "note": "The part about the flat memory is REFUTED; capacity and accounting parts are proved."
  },
  {
   "property": "C51",
   "status": "partial",
   "theorems": [
    "C51_sample_distinct_partial",
    "C51_sample_distinct_refuted"
   ],
   "note": "REFUTED for wait_priority_after_sampling=False with uniform_ratio>0; proved otherwise."
  },
  {
   "property": "C52",
   "status": "partial",
   "theorems": [
    "C52_load_v02_refuted",
    "C52_load_v02_partial"
   ],
   "note": "REFUTED: IndexError when the old file ends inside an episode. Recovery proved when the last item is terminal."
  },
  {
   "property": "C53",
   "status": "proved",
   "theorems": [
    "C53_concatenate_get",
    "C53_mask"
   ],
   "note": "Tensors are lists of exact rationals; indices non-negative."
  },
  {
   "property": "C54",
   "status": "proved",
   "theorems": [
    "C54_batch_recurrent"
   ],
   "note": ""
  },
  {
   "property": "C55",
   "status": "proved",
   "theorems": [
    "C55_sequential",
    "C55_initial_state",
    "C55_wrong_length",
    "C55_branched"
   ],
   "note": "Layers are arbitrary functions."
  },
  {
   "property": "C56",
   "status": "partial",
   "theorems": [
    "C56_any_crash_reopens_refuted",
    "C56_crash_outside_meta_partial"
   ],
   "note": "REFUTED: a torn meta file makes the directory unusable. Proved for every other crash point."
  },
  {
   "property": "C57",
   "status": "partial",
   "theorems": [
    "C57_noop_reset",
    "C57_fire_reset_partial",
    "C57_fire_reset_refuted"
   ],
   "note": "REFUTED for FireResetEnv: if its second step ends the game, it resets the game but returns the observation of the finished game. Proved for NoopResetEnv, and for FireResetEnv otherwise."
  },
  {
   "property": "C58",
   "status": "proved",
   "theorems": [
    "C58_timestep_limited",
    "C58_action_repeated"
   ],
   "note": "Exact rationals for rewards."
  },
  {
   "property": "C59",
   "status": "partial",
   "theorems": [
    "C59_attributes_partial",
    "C59_spec_refuted"
   ],
   "note": "REFUTED: SerialVectorEnv.spec is the observation space of the first environment."
  },
  {
   "property": "C60",
   "status": "proved",
   "theorems": [
    "C60_rollouts"
   ],
   "note": ""
  },
  {
   "property": "C61",
   "status": "partial",
   "theorems": [
    "C61_second_run_refuted",
    "C61_second_run_reached_refuted",
    "C61_second_run_skips_refuted",
    "C61_second_run_partial"
   ],
   "note": "REFUTED: t restarts at 0 but t_start does not."
  },
  {
   "property": "C62",
   "status": "proved",
   "theorems": [
    "C62_updates",
    "C62_modes_agree"
   ],
   "note": "Gradients are formal sums of coefficient and action; autograd is not modelled."
  },
  {
   "property": "C63",
   "status": "proved",
   "theorems": [
    "C63_discrete",
    "C63_distributional",
    "C63_quantile"
   ],
   "note": "Exact rationals for floats; one example of a batch at a time."
  },
  {
   "property": "C64",
   "status": "proved",
   "theorems": [
    "C64_al",
    "C64_pal",
    "C64_dpp"
   ],
   "note": "Exact rationals for floats; non-recurrent models; the DPP operator is any function."
  },
  {
   "property": "C65",
   "status": "proved",
   "theorems": [
    "C65_huber",
    "C65_unit_weights",
    "C65_unit_weights_categorical",
    "C65_unit_weights_iqn",
    "C65_weight_scales",
    "C65_errors",
    "C65_quantile",
    "C65_value_loss",
    "C65_value_loss_categorical",
    "C65_value_loss_iqn",
    "C65_value_loss_iqn_batch"
   ],
   "note": "Exact rationals for floats; gradients are not modelled (the Lipschitz bound stands for them)."
  },
  {
   "property": "C66",
   "status": "partial",
   "theorems": [
    "C66_load_refuted",
    "C66_load_partial",
    "C66_new_partial"
   ],
   "note": "REFUTED: the cached inverse standard deviation survives load_state_dict, so a normaliser that was already used keeps the old scale until it next learns a batch. Proved for new normalisers and those that learned since they last normalised. Real numbers."
  },
  {
   "property": "C67",
   "status": "partial",
   "theorems": [
    "C67_refuted",
    "C67_no_overflow_partial",
    "C67_poller"
   ],
   "note": "REFUTED: on a full buffer misplaced priorities (C48) can leave fewer drawable transitions than a minibatch, and the next sample raises. Proved: the poller never fails, and the learner never fails on schedules during which the buffer drops nothing."
  },
  {
   "property": "C68",
   "status": "proved",
   "theorems": [
    "C68_cadence",
    "C68_steps"
   ],
   "note": "Model of the learner loop with prioritized buffer; hooks and recurrent models left out."
  },
  {
   "property": "C69",
   "status": "proved",
   "theorems": [
    "C69_worker",
    "C69_isolated"
   ],
   "note": "Gradient computation, clipping and the optimizer step are one oracle of the update's inputs; shared memory is modelled by letting other workers write between the worker's calls."
  },
  {
   "property": "C70",
   "status": "proved",
   "theorems": [
    "C70_worker",
    "C70_start_size_zero_fails"
   ],
   "note": "Gradient and optimizer step are one oracle of the update's inputs (the loss itself: C71, C72, C42). With replay_start_size = 0 the first segment that ends before its episode raises (C70_start_size_zero_fails), hence the hypothesis."
  },
  {
   "property": "C71",
   "status": "proved",
   "theorems": [
    "C71_targets",
    "C71_loss",
    "C71_bounded",
    "C71_on_policy"
   ],
   "note": "Exact rationals; rho and its d-th root are arguments; the per-step policy term is any function of the advantage (its parts: C72, C42)."
  },
  {
   "property": "C72",
   "status": "proved",
   "theorems": [
    "C72_mixture",
    "C72_unbiased",
    "C72_untruncated",
    "C72_sampled",
    "C72_truncated"
   ],
   "note": "Linear in the logits, so the same identities hold for gradients. Continuous distributions are represented by finitely many points."
  },
  {
   "property": "C73",
   "status": "partial",
   "theorems": [
    "C73_load_refuted",
    "C73_load_partial",
    "C73_evaluation_partial"
   ],
   "note": "REFUTED: shared_average_model is neither saved nor reset by load, so the trust region of a loaded agent is measured from its initial average network (C73_load_refuted). Proved: model and shared model are restored and nothing else changes; in evaluation the loaded agent acts as the saved one."
  },
  {
   "property": "C74",
   "status": "proved",
   "theorems": [
    "C74_solves",
    "C74_monotone"
   ],
   "note": "Exact rationals; a division by zero makes the tensors computed from it non-finite. Without a tolerance (tol = 0) rounds after the exact solution give NaN, hence the hypothesis."
  },
  {
   "property": "C75",
   "status": "partial",
   "theorems": [
    "C75_step_partial",
    "C75_zero_gradient_partial",
    "C75_step_refuted"
   ],
   "note": "REFUTED: with a zero gain gradient the direction is 0/0, and no finite step is proposed (C75_step_refuted, C75_zero_gradient_partial). Proved for gradients other than zero, with any root of bounded relative error, however few CG iterations are made. The Hessian-vector product is an oracle."
  },
  {
   "property": "C76",
   "status": "proved",
   "theorems": [
    "C76_td3"
   ],
   "note": "Networks, automatic differentiation, optimizers, clipping and sampling are oracles; gradient accumulation is modelled explicitly."
  },
  {
   "property": "C77",
   "status": "proved",
   "theorems": [
    "C77_sac",
    "C77_ddpg"
   ],
   "note": "Same model as C76; DDPG's target synchronisation times are C40."
  },
  {
   "property": "C78",
   "status": "partial",
   "theorems": [
    "C78_continues_partial",
    "C78_continues_refuted"
   ],
   "note": "REFUTED: the update counters are not saved, so with burnin_action_func a trained and loaded agent takes burn-in actions again until its first update, and a loaded TD3 agent delays its policy updates differently unless saved at a multiple of policy_update_delay. Proved: without burn-in (or with both agents past or before it), and for TD3 with agreeing counters modulo the delay, the loaded agent continues exactly as the saved one; leftover gradients do not matter."
  },
  {
   "property": "C79",
   "status": "proved",
   "theorems": [
    "C79_loss",
    "C79_pessimistic",
    "C79_no_gain",
    "C79_first_step"
   ],
   "note": "Real numbers (stdlib axioms of the reals). Network outputs are inputs."
  },
  {
   "property": "C80",
   "status": "partial",
   "theorems": [
    "C80_standardized",
    "C80_recurrent_partial",
    "C80_recurrent_refuted"
   ],
   "note": "REFUTED for recurrent models: if all advantages of a dataset are equal (for instance all zero), the update raises AssertionError. Proved without recurrence; with recurrence it fails exactly in that case and otherwise uses the same advantages."
  },
  {
   "property": "C81",
   "status": "proved",
   "theorems": [
    "C81_explained_variance"
   ],
   "note": ""
  },
  {
   "property": "C82",
   "status": "partial",
   "theorems": [
    "C82_restores_refuted",
    "C82_follow_root_partial",
    "C82_uniform_partial"
   ],
   "note": "REFUTED: all submodules come back in the root's mode, so a submodule deliberately kept in evaluation mode inside a training network is put into training mode (C82_restores_refuted). Proved: inside everything is in evaluation mode, afterwards everything has the root's mode, also after exceptions; so modes are restored when they were uniform."
  },
  {
   "property": "C83",
   "status": "partial",
   "theorems": [
    "C83_makes_noisy_refuted",
    "C83_twice_refuted",
    "C83_makes_noisy_partial"
   ],
   "note": "REFUTED: a linear layer in a submodule shared by two parents is converted twice (noisy inside noisy), a network that is itself one linear layer is not converted, of a layer registered under two names only the first is replaced, and converting twice breaks the network. Proved for networks without sharing whose root is not a linear layer."
  },
  {
   "property": "C84",
   "status": "partial",
   "theorems": [
    "C84_average",
    "C84_normalized_partial",
    "C84_bounded_partial",
    "C84_normalizes_refuted"
   ],
   "note": "REFUTED for NormalizedRewardFilter: it divides by zero as long as all rewards are zero, and takes min(variance, eps) rather than max, so outputs are unbounded. Proved: AverageRewardFilter; the exact value of every call; the bound as long as the variance is at most eps. Real numbers (stdlib axioms of the reals)."
  },
  {
   "property": "C85",
   "status": "proved",
   "theorems": [
    "C85_clip"
   ],
   "note": "Real numbers (stdlib axioms of the reals)."
  },
  {
   "property": "C86",
   "status": "proved",
   "theorems": [
    "C86_dueling",
    "C86_distributional",
    "C86_distributional_shift"
   ],
   "note": "Exact rationals; exp is any positive function. The network before the heads is an input."
  },
  {
   "property": "C87",
   "status": "proved",
   "theorems": [
    "C87_layout",
    "C87_positive_definite",
    "C87_greedy"
   ],
   "note": "Exact rationals; exp is any positive function and tanh any function into [-1,1]."
  },
  {
   "property": "C88",
   "status": "proved",
   "theorems": [
    "C88_formula",
    "C88_groups",
    "C88_bounded"
   ],
   "note": "Real numbers (stdlib axioms of the reals); one entry per parameter, as the update is elementwise."
  },
  {
   "property": "C89",
   "status": "proved",
   "theorems": [
    "C89_delivery",
    "C89_answered",
    "C89_statistics",
    "C89_recurrent_states"
   ],
   "note": "Pipes are first-in first-out queues without loss; a poll handles one pipe at a time as _poll_pipe does (up to its message limit)."
  },
  {
   "property": "C90",
   "status": "partial",
   "theorems": [
    "C90_failure_ends_training_refuted",
    "C90_failure_hangs",
    "C90_no_failure_no_hang_partial",
    "C90_other_agents_partial"
   ],
   "note": "REFUTED: the poller stops answering once the exception event is set, so an actor that has asked for something (save, statistics, acknowledged transfer) waits for ever; process 0 does so at the latest when it saves the agent. Proved: without failure nothing hangs; agents that are their own learners (A3C) end."
  },
  {
   "property": "C91",
   "status": "partial",
   "theorems": [
    "C91_uniform_partial",
    "C91_prioritized_partial",
    "C91_prioritized_resumes_refuted"
   ],
   "note": "REFUTED for PrioritizedReplayBuffer: the annealed exponent beta is not part of the snapshot and restarts, so the importance weights and hence the updates differ. Proved: exact resumption with the uniform buffer; with the prioritized one if beta is not annealed or still has its start value when the snapshot is taken. One environment, feed-forward model; networks and optimizer are arbitrary functions of the saved parameters and optimizer state. The prioritized theorems use real numbers (stdlib axioms)."
  },
  {
   "property": "C92",
   "status": "partial",
   "theorems": [
    "C92_own_process_refuted",
    "C92_process_partial",
    "C92_batch_partial",
    "C92_own_process_partial",
    "C92_stationary"
   ],
   "note": "REFUTED for two or more environments: they share one process, which moves N steps between two actions of an environment, so the correlation is (1 - theta)^N and the noise of one environment feeds on the samples of the others. Proved: the process and its closed form over all calls, the exact law per environment, the claim for one environment, stationarity of the start variance (real numbers, stdlib axioms). One component of the action."
  },
  {
   "property": "C93",
   "status": "proved",
   "theorems": [
    "C93_feedforward",
    "C93_recurrent",
    "C93_bootstrap",
    "C93_dataset",
    "C93_dataset_recurrent"
   ],
   "note": "Transitions are heap objects referenced from the episodes, as in Python; the model is an arbitrary function (recurrent: a step function); observation normaliser as an arbitrary function."
  },
  {
   "property": "C94",
   "status": "partial",
   "theorems": [
    "C94_starts_on_policy_refuted",
    "C94_feedforward_partial",
    "C94_recurrent_partial",
    "C94_carried"
   ],
   "note": "REFUTED with an observation normaliser: _update lets it learn the new observations after the log-probabilities and values were computed, so already the first minibatch sees other inputs and ratios differ from 1. Proved without one (or when it is not updated). The refutation uses real numbers (stdlib axioms)."
  },
  {
   "property": "C95",
   "status": "proved",
   "theorems": [
    "C95_embedding",
    "C95_pairs",
    "C95_prediction",
    "C95_deterministic",
    "C95_thresholds"
   ],
   "note": "cos is an arbitrary function; feature and output layers are functions of a row; no recurrent states (C89, C93)."
  },
  {
   "property": "C96",
   "status": "partial",
   "theorems": [
    "C96_every_discrete_agent_refuted",
    "C96_law_partial",
    "C96_temperature",
    "C96_batch_partial"
   ],
   "note": "REFUTED for agents with distributional values (CategoricalDQN, CategoricalDoubleDQN): DistributionalDiscreteActionValue is not a DiscreteActionValue, so the explorer raises AssertionError although q_values are available. Proved for DiscreteActionValue and QuantileDiscreteActionValue: the exact law, its dependence on the temperature, and rows of a batch. Real numbers (stdlib axioms)."
  },
  {
   "property": "C97",
   "status": "partial",
   "theorems": [
    "C97_initial_scales_refuted",
    "C97_forward",
    "C97_unbiased",
    "C97_initial_weights_partial"
   ],
   "note": "REFUTED for the biases: their noise scale starts at sigma_scale / sqrt(outputs) instead of sqrt(inputs). Proved: forward, unbiasedness, initial means and scales of the weights (and of the biases for square layers). Real numbers (stdlib axioms)."
  },
  {
   "property": "C98",
   "status": "partial",
   "theorems": [
    "C98_act_with_mode_refuted",
    "C98_mode_partial",
    "C98_heads",
    "C98_squashed_partial",
    "C98_unsupported"
   ],
   "note": "REFUTED for squashed Gaussians (the policy of the soft actor-critic examples): the transform of the base mode is returned, which is not a mode of the transformed distribution; with standard deviation 2 the density is larger elsewhere. Proved: categorical, (independent, multivariate) normal and affinely transformed distributions; for tanh the value returned is the median. Real numbers (stdlib axioms)."
  },
  {
   "property": "C99",
   "status": "partial",
   "theorems": [
    "C99_every_target_refuted",
    "C99_discrete_partial",
    "C99_continuous_partial",
    "C99_quantile_partial",
    "C99_categorical_partial",
    "C99_double_pal_partial"
   ],
   "note": "REFUTED for PAL and DoublePAL: the advantage in the next state enters the target also when the episode is over. Proved for DQN, DoubleDQN, AL, DPP, DDPG, TD3, SAC, IQN and categorical (double) DQN (distributions of total 1), and DoublePAL's operator example by example."
  },
  {
   "property": "C100",
   "status": "partial",
   "theorems": [
    "C100_never_partial_files",
    "C100_available_refuted",
    "C100_available_partial",
    "C100_no_deadlock",
    "C100_one_download"
   ],
   "note": "REFUTED for availability: a process stopped between renaming the archive and the end of unpacking leaves the archive behind, and later calls return the model as cached although it was never unpacked. Proved: files are never truncated, nobody waits for ever, one download per failure at most, and availability when no process is stopped while unpacking."
  },
  {
   "property": "C101",
   "status": "partial",
   "theorems": [
    "C101_mlp",
    "C101_state_action",
    "C101_one_hidden_layer_is_separable",
    "C101_batchnorm",
    "C101_atoms",
    "C101_atari",
    "C101_all_constructible_refuted"
   ],
   "note": "REFUTED: FCLSTMSAQFunction and SingleModelStateActionQFunction cannot be built, and an nn.Module given as nonlinearity raises AttributeError. Proved for plain callables: the values of every other class; with late action and one hidden layer the advantages of actions are the same in all states; one row in training mode raises with batch normalisation; the Atari networks accept square frames of 84 to 91 pixels only."
  },
  {
   "property": "C102",
   "status": "partial",
   "theorems": [
    "C102_arguments",
    "C102_batch_arguments",
    "C102_schedule",
    "C102_batch_schedule",
    "C102_shared_environment",
    "C102_separate_environment_partial",
    "C102_batch_shared_environment_refuted"
   ],
   "note": "REFUTED for the batch loop without an evaluation environment: evaluations run in the training environments in the middle of episodes, and training continues from the states they left behind. Proved: the checks of arguments, the schedule and the scores of both loops, that the single-environment loop resets before its next action after an evaluation in the same environment, and that an evaluation environment of its own leaves the training side of the world alone."
  },
  {
   "property": "C103",
   "status": "proved",
   "theorems": [
    "C103_continuing",
    "C103_episodic",
    "C103_shifts",
    "C103_greedy",
    "C103_probabilities"
   ],
   "note": "Actions are integers or vectors of exact numbers; the draw of random actions is an oracle, its softmax probabilities are bounded over the reals. The first episode counts as number 0 and is shifted."
  },
  {
   "property": "C104",
   "status": "partial",
   "theorems": [
    "C104_nothing_lost",
    "C104_contents",
    "C104_backup_exists",
    "C104_unserializable",
    "C104_argv_refuted"
   ],
   "note": "REFUTED for the identifier: an explicit argv does not enter the generated identifier (the value of sys.argv at import does), so that runs with different argv share a directory. Proved: nothing is lost at any point of interruption, what is in the directory on return, and that an existing backup directory or arguments that are not JSON make the call fail, and what is left then. The output directory is flat in the model (no subdirectories); writing a small file is one atomic change after truncation."
  },
  {
   "property": "C105",
   "status": "partial",
   "theorems": [
    "C105_dqn",
    "C105_iqn_partial",
    "C105_iqn_refuted",
    "C105_ddpg",
    "C105_td3",
    "C105_sac",
    "C105_ppo",
    "C105_trpo",
    "C105_actor_critics",
    "C105_decayed_bounds",
    "C105_a2c_partial",
    "C105_a2c_value_refuted"
   ],
   "note": "REFUTED for two agents: IQN's average_q averages the values of all actions, not of the taken ones, and A2C's average_value is the decaying average of the losses of the value function. Proved for the other agents and the other keys of these two. The histories are lists of what each update computes (values, losses, entropies); NaN of an empty window is the value None; the replay buffer is taken to be below its capacity in rlen."
  },
  {
   "property": "C106",
   "status": "partial",
   "theorems": [
    "C106_step",
    "C106_frame_limit",
    "C106_frame_limit_refuted",
    "C106_no_step_after_end_partial",
    "C106_no_step_after_end_refuted"
   ],
   "note": "REFUTED with episodic lives: the no-op step that stands for a reset after a lost life can itself reach the limit or end the game; its flags are thrown away, and the next step asks for one frame more than the limit, or for a frame of a finished game. Proved: the limit plus one with episodic lives, the exact limit and no frame after the end without them, and what each single step does under all options. Resizing to grey scale is an uninterpreted function of the frame; frames are lists of pixels."
  },
  {
   "property": "C107",
   "status": "partial",
   "theorems": [
    "C107_statistics",
    "C107_statistics_exist",
    "C107_table",
    "C107_earlier_scores_partial",
    "C107_earlier_scores_refuted"
   ],
   "note": "REFUTED in its last sentence: the header is written over the file, so the scores of an earlier run into the same directory are lost (with AsyncEvaluator, at the first evaluation). Everything else is proved. Numbers are exact, printing of numbers is an argument, appending a line is atomic."
  },
  {
   "property": "C108",
   "status": "partial",
   "theorems": [
    "C108_curves",
    "C108_all_recorded_partial",
    "C108_returns",
    "C108_all_recorded_refuted"
   ],
   "note": "REFUTED when the stop event is set while processes are still running (a successful agent, or the caller): the writer thread may end first, and later evaluations are not recorded. Proved if only the main process sets the event, after all processes have ended; curves and return without condition. The queue is modelled as documented for multiprocessing.Queue with a pipe without limit; processes that end abnormally are not modelled."
  },
  {
   "property": "C109",
   "status": "partial",
   "theorems": [
    "C109_ppo",
    "C109_ppo_recurrent",
    "C109_trpo_partial",
    "C109_trpo_recurrent_partial",
    "C109_packing",
    "C109_trpo_refuted"
   ],
   "note": "REFUTED for TRPO with a batch_states of its own: the normaliser, the policy update and the value function use the function imported into the module, only the line search uses the agent's. Proved for PPO, and for TRPO if the two functions agree (for a recurrent TRPO agent without a normaliser, always). Longest first: C109_packing."
  },
  {
   "property": "C110",
   "status": "proved",
   "theorems": [
    "C110_rows",
    "C110_accepted"
   ],
   "note": "Numbers and devices are abstract; default_collate is modelled for arrays, tuples, lists and dicts of arrays."
  },
  {
   "property": "C111",
   "status": "proved",
   "theorems": [
    "C111_bound",
    "C111_actions",
    "C111_rest"
   ],
   "note": "Exact real arithmetic; with floating point tanh saturates and the bounds themselves are reached."
  },
  {
   "property": "C112",
   "status": "proved",
   "theorems": [
    "C112_recorded",
    "C112_before_closing",
    "C112_refused"
   ],
   "note": "gym's StatsRecorder (0.21), on which the class is built, is modelled from its documented behaviour. Types of episodes, videos and time stamps are left out."
  },
  {
   "property": "C113",
   "status": "proved",
   "theorems": [
    "C113_render",
    "C113_make_rendered",
    "C113_undisturbed",
    "C113_closing",
    "C113_cast",
    "C113_filters"
   ],
   "note": "render() is taken to read the environment without changing it. Closing an environment given to make_rendered closes it only if its render accepts close=True (C113_closing)."
  },
  {
   "property": "C114",
   "status": "partial",
   "theorems": [
    "C114_replay_buffer",
    "C114_prioritized_buffer",
    "C114_successive_runs_partial",
    "C114_successive_runs_refuted"
   ],
   "note": "REFUTED in general for successive runs: train_agent stops after its last step without telling the agent that the episode will not go on, so that with n-step learning (n > 1) a second run of train_agent stores and learns from windows that lead from the last episode of the first run into the first episode of the second (C114_successive_runs_refuted). Proved in full for one run, whatever its outcome (C114_replay_buffer, C114_prioritized_buffer), and for successive runs that begin after a finished episode or with n = 1 (C114_successive_runs_partial)."
  },
  {
   "property": "C115",
   "status": "partial",
   "theorems": [
    "C115_pruning",
    "C115_batch_pruning",
    "C115_steps",
    "C115_best_agent_refuted"
   ],
   "note": "REFUTED for the saving of the best agent: the evaluator calls the hooks before it compares the score with the best one, so the evaluation that prunes a trial is recorded in scores.txt but neither raises max_score nor saves the best agent, even if its score is the highest (C115_best_agent_refuted). The rest is proved in full: what the trial is told and when training ends (C115_pruning, C115_batch_pruning), increasing steps (C115_steps)."
  },
  {
   "property": "C116",
   "status": "partial",
   "theorems": [
    "C116_acting",
    "C116_fresh",
    "C116_storage",
    "C116_learning",
    "C116_evaluation",
    "C116_new_run_refuted"
   ],
   "note": "(a)-(d) proved: C116_acting and C116_fresh (a), C116_storage (b), C116_learning (c), C116_evaluation (d). (e) REFUTED: C116_new_run_refuted gives two runs of train_agent of three steps each in an environment whose episode does not end; at the first action of the second run the network is in the state after three observations. C116_fresh is what remains true: nothing is remembered after an episode whose end the agent was told."
  },
  {
   "property": "C117",
   "status": "proved",
   "theorems": [
    "C117_shown"
   ],
   "note": "C117_shown is the whole claim for the model of SerialVectorEnv (C24 relates MultiprocessVectorEnv to it)."
  },
  {
   "property": "C118",
   "status": "proved",
   "theorems": [
    "C118_episodes",
    "C118_contents",
    "C118_schedule"
   ],
   "note": "(a) C118_episodes, (b) C118_contents, (c) C118_schedule."
  },
  {
   "property": "C119",
   "status": "proved",
   "theorems": [
    "C119_once",
    "C119_sequences"
   ],
   "note": "(a) C119_once, (b) C119_sequences."
  },
  {
   "property": "C120",
   "status": "proved",
   "theorems": [
    "C120_acting",
    "C120_on_policy",
    "C120_advantages",
    "C120_bootstrap",
    "C120_replay",
    "C120_replay_feedforward",
    "C120_evaluation",
    "C120_evaluation_acting"
   ],
   "note": "(a) C120_acting, (b) C120_on_policy, (c) C120_advantages (for a recurrent agent: stretches in which each observation acted on is the next observation of the step before) and C120_bootstrap, (d) C120_replay and C120_replay_feedforward, (e) C120_evaluation and C120_evaluation_acting."
  },
  {
   "property": "C121",
   "status": "partial",
   "theorems": [
    "C121_dqn",
    "C121_ppo",
    "C121_single",
    "C121_refuted"
   ],
   "note": "REFUTED for evaluations with n_steps in one environment (C121_refuted: two evaluations of the same parameters give different scores). Proved for all other evaluations: C121_dqn, C121_ppo, C121_single. A feedforward agent has no such state."
  },
  {
   "property": "C122",
   "status": "proved",
   "theorems": [
    "C122_categorical_dqn",
    "C122_categorical_double_dqn",
    "C122_minimum",
    "C122_iqn"
   ],
   "note": "Uses the real logarithm: the axioms of the standard library's real numbers. Floating point and gradients are not modelled."
  },
  {
   "property": "C123",
   "status": "proved",
   "theorems": [
    "C123_discrete",
    "C123_continuous",
    "C123_no_draws",
    "C123_copy",
    "C123_copy_clamped",
    "C123_unsupported",
    "C123_params"
   ],
   "note": "Policies with finitely many actions for expectations; uses the axioms of the standard library's real numbers."
  },
  {
   "property": "C124",
   "status": "proved",
   "theorems": [
    "C124_priorities",
    "C124_update",
    "C124_observe"
   ],
   "note": "whole runs over a heap of weight fields; priorities, draws and weights characterised from the history alone; ** is an arbitrary function that is positive for positive bases"
  },
  {
   "property": "C125",
   "status": "proved",
   "theorems": [
    "C125_async_a3c",
    "C125_learned"
   ],
   "note": "An optimizer step on the shared parameters is atomic in the model; in reality it is lock-free (Hogwild) and two may overlap parameter by parameter. An exception in an agent call is assumed to leave the agent unchanged."
  },
  {
   "property": "C126",
   "status": "partial",
   "theorems": [
    "C126_results",
    "C126_saved_complete",
    "C126_returned_refuted",
    "C126_saved_refuted",
    "C126_first_refuted"
   ],
   "note": "REFUTED on all three counts. Proved instead: the returned agent's shared_model holds the result of all updates while the model it acts with is still the initial one; a saved agent holds the shared parameters as of the saving worker's own last update, hence all updates if it made the last one; with make_agent each worker acts with its own initialisation until its first update."
  },
  {
   "property": "C127",
   "status": "proved",
   "theorems": [
    "C127_sum_no_drift",
    "C127_draws",
    "C127_binary64_sum",
    "C127_binary64_draws"
   ],
   "note": "Arithmetic abstract in the first two theorems (record rounded, S_FloatTree.v), IEEE binary64 of the Flocq library in the last two (b64_rounded). Python floats and numpy float64 have the same operations. Uses the axioms of the standard library's real numbers and classical logic."
  },
  {
   "property": "C128",
   "status": "partial",
   "theorems": [
    "C128_draw_refuted",
    "C128_draw5_refuted",
    "C128_twice_refuted"
   ],
   "note": "REFUTED. The claim is false of binary64 arithmetic; the bound on when it can fail is C127. The axioms listed come from the correctness proofs inside Flocq's operations."
  },
  {
   "property": "C129",
   "status": "proved",
   "theorems": [
    "C129_finite",
    "C129_bound",
    "C129_serial"
   ],
   "note": "One entry of one parameter (all tensor operations of the step are elementwise); reads and writes of one entry atomic, memory sequentially consistent, real numbers with a value for what is not finite. The sequential optimizer is M_RMSprop.v (C88)."
  },
  {
   "property": "C130",
   "status": "partial",
   "theorems": [
    "C130_lost_refuted",
    "C130_spike_refuted",
    "C130_unbounded_refuted",
    "C130_nan_refuted"
   ],
   "note": "REFUTED. The claim is false of the model; what holds for all schedules is C129. Training without locks is intended (Hogwild), its effect on the optimizer's guarantees is what the witnesses show."
  },
  {
   "property": "C131",
   "status": "proved",
   "theorems": [
    "C131_epsilon",
    "C131_epsilon_monotone",
    "C131_certain",
    "C131_beta",
    "C131_beta_stays"
   ],
   "note": "IEEE binary64 of the Flocq library; step counts up to 2^53. Uses the axioms of the standard library's real numbers and classical logic."
  },
  {
   "property": "C132",
   "status": "partial",
   "theorems": [
    "C132_undershoot_refuted",
    "C132_beta_refuted"
   ],
   "note": "REFUTED. The claim is false of binary64 arithmetic; error bounds are in C131."
  },
  {
   "property": "C133",
   "status": "proved",
   "theorems": [
    "C133_lessons"
   ],
   "note": "Whole runs of train_agent_batch with a step offset of 0 and a new agent; the optimizer step is an arbitrary function of the lesson."
  },
  {
   "property": "C134",
   "status": "proved",
   "theorems": [
    "C134_dqn",
    "C134_double_dqn",
    "C134_al",
    "C134_pal",
    "C134_iterates_exist",
    "C134_larger_alpha_may_never_be_optimal",
    "C134_alpha_one_may_diverge"
   ],
   "note": "Exact fitting (a table, all transitions with their probabilities, target synchronized after every fit) in place of gradient steps on sampled batches; exact arithmetic. The targets are those of the modelled code. Limits use the standard library's real numbers and their axioms."
  },
  {
   "property": "C135",
   "status": "proved",
   "theorems": [
    "C135_near_max",
    "C135_softmax_near",
    "C135_logsumexp_near",
    "C135_dpp",
    "C135_dppl",
    "C135_dpp_greedy",
    "C135_iterates_exist"
   ],
   "note": "Exact fitting (a table, all transitions with their probabilities, target synchronized after every fit) in place of gradient steps on sampled batches. The targets are those of the modelled code with the softmax and log-sum-exp operators within a bounded error of their real values. The exp/ln theorems use the standard library's real numbers, their axioms and classic."
  },
  {
   "property": "C136",
   "status": "proved",
   "theorems": [
    "C136_categorical_dqn",
    "C136_categorical_double_dqn",
    "C136_iterates_exist",
    "C136_reward_range",
    "C136_returns_inside_not_enough"
   ],
   "note": "Exact fitting (mixtures of the targets of all transitions with their probabilities, target synchronized after every fit) in place of gradient steps on sampled batches; exact arithmetic. The clipping of predicted probabilities at 1e-10 in the loss is not part of this statement. Limits use the standard library's real numbers and their axioms."
  },
  {
   "property": "C137",
   "status": "proved",
   "theorems": [
    "C137_ppo",
    "C137_ppo_complete",
    "C137_a2c",
    "C137_a3c",
    "C137_acer",
    "C137_a2c_cut_is_biased"
   ],
   "note": "Exact arithmetic; the functions that compute targets are those of the modelled code, fed with the stored form of the steps (C93, C133, C69 and C18/C70 prove that this is what is stored). Value predictions are those at the time of the computation. TRPO uses the function of PPO. REINFORCE is the subject of C140."
  },
  {
   "property": "C138",
   "status": "proved",
   "theorems": [
    "C138_worth",
    "C138_ddpg",
    "C138_td3",
    "C138_sac",
    "C138_rounds_exist"
   ],
   "note": "Exact arithmetic; tabular critics (one parameter per state and action) in place of networks, finitely many actions, one-step windows; the policy does not change between rounds. Targets and averaging are the modelled functions of M_Targets.v and M_ActorCritic.v."
  },
  {
   "property": "C139",
   "status": "proved",
   "theorems": [
    "C139_soft_improves",
    "C139_soft_optimal",
    "C139_softmax",
    "C139_neg_q_improves",
    "C139_neg_q_optimal",
    "C139_batch_mean_not_enough",
    "C139_temperature"
   ],
   "note": "Exact real arithmetic, finitely many states and actions. Losses are expected losses for a batch of one state; the temperature step is a plain gradient step (Adam's first step has the same sign)."
  },
  {
   "property": "C140",
   "status": "partial",
   "theorems": [
    "C140_gradient_refuted",
    "C140_one_update",
    "C140_expected_update_partial",
    "C140_equal_rewards"
   ],
   "note": "REFUTED: the claim is false of the code; the coefficients are shifted by one step (C36). C140_expected_update_partial is the exact value of the expected update, C140_equal_rewards a case where the claim holds. Exact real arithmetic; the update is identified with the negative gradient of the loss (plain gradient steps, no clipping); episodes have bounded length."
  },
  {
   "property": "C141",
   "status": "proved",
   "theorems": [
    "C141_undiscounted",
    "C141_one_state",
    "C141_discounted_opposite",
    "C141_length_opposite"
   ],
   "note": "The updates are those the modelled worker (C69) makes when it goes through the episode; their policy part is the negative gradient of the policy loss (plain gradient steps, no clipping). Exact real arithmetic; episodes have bounded length and end within t_max steps."
  },
  {
   "property": "C142",
   "status": "proved",
   "theorems": [
    "C142_uniform",
    "C142_each_index",
    "C142_finishes",
    "C142_all_outcomes",
    "C142_direct",
    "C142_queue"
   ],
   "note": "The generator's outcomes are the numbers np.random.choice with replacement returns, all sequences of which are counted equally; np.random.choice without replacement is an oracle (its result is returned unchanged)."
  },
  {
   "property": "C143",
   "status": "partial",
   "theorems": [
    "C143_first",
    "C143_next",
    "C143_bias_partial",
    "C143_batch_of_one",
    "C143_one_mean",
    "C143_batch_of_one_refuted",
    "C143_batch_of_two_refuted"
   ],
   "note": "REFUTED: the claim is false of the code for normalize_by_max='batch' (the default) and for all but the first element of a batch; C143_next is the exact mean, C143_bias_partial the bound of the error. Exact arithmetic; priorities are rational; losses do not depend on the draw."
  },
  {
   "property": "C144",
   "status": "partial",
   "theorems": [
    "C144_normalized",
    "C144_normalized_monotone",
    "C144_bounded",
    "C144_bounded_monotone",
    "C144_symmetric",
    "C144_normalized_partial",
    "C144_refuted"
   ],
   "note": "REFUTED: false of the code for some asymmetric bounds (C144_refuted, binary32); C144_normalized and C144_bounded are the conditions under which it holds, C144_normalized_partial bounds the excess. Action and bounds are in the same format; the value of tanh is an input between -1 and 1; bounds at most 2^(emax-3) in absolute value."
  },
  {
   "property": "C145",
   "status": "proved",
   "theorems": [
    "C145_projection"
   ],
   "note": "scatter_add_ adds in the order of its arguments; integer tensors do not overflow; atoms at most 2^100 in absolute value. C145_clamp_needed shows that the second clipping of the code is needed."
  },
  {
   "property": "C146",
   "status": "proved",
   "theorems": [
    "C146_running",
    "C146_limit_needed"
   ],
   "note": "One component; the mean and the variance of a batch as torch.var_mean returns them are inputs; a Python number divided by a tensor is the reciprocal of the tensor times the number, as in torch. C146_limit_needed is the witness that the limit on the batch size cannot be dropped."
  },
  {
   "property": "C147",
   "status": "proved",
   "theorems": [
    "C147_tracking",
    "C147_constant",
    "C147_stalls"
   ],
   "note": "One float32 component; dictionaries, shapes and other dtypes are modelled in M_CopyParam.v (C45). The multiplication and the addition round separately, as the two in-place operations of the code do."
  },
  {
   "property": "C148",
   "status": "proved",
   "theorems": [
    "C148_lecun",
    "C148_default"
   ],
   "note": "Linear layers, real arithmetic; the draws of Tensor.normal_ are inputs of which only linearity of the average and the first two moments are used. Convolutions are not modelled."
  }
 ]
}