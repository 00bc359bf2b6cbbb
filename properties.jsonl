{"id": "C01", "title": "RandomAccessQueue is a bounded FIFO sequence", "statement": "Any sequence of append/extend/popleft/q[i]/q[i]=x/len/iteration on a RandomAccessQueue(maxlen) gives exactly the results of the same sequence on a plain list that drops elements from the front whenever its length exceeds maxlen: same values, same lengths, same IndexErrors, for non-negative and negative indices.", "quantifier": "every maxlen (None or any natural number), every initial sequence, every finite sequence of operations with arbitrary arguments (indices may be out of range)", "why_tests_cant": "The two-list representation has a different internal shape after every history; a test visits finitely many histories and index choices.", "anchors": ["pfrl/collections/random_access_queue.py: RandomAccessQueue"]}
{"id": "C02", "title": "sample_n_k returns k distinct in-range indices", "statement": "sample_n_k(n, k) raises ValueError unless 0 <= k <= n; otherwise, whenever it returns, it returns exactly k pairwise distinct integers in [0, n), whatever the random generator produces. RandomAccessQueue.sample(k) therefore returns k elements stored at k distinct positions.", "quantifier": "every n, k and every sequence of outcomes of the random generator (including adversarial ones that repeat forever, for which the call does not return)", "why_tests_cant": "The rejection path runs only for unlucky draws; no finite number of seeds covers all outcomes of the generator.", "anchors": ["pfrl/utils/random.py: sample_n_k", "pfrl/collections/random_access_queue.py: RandomAccessQueue.sample"]}
{"id": "C03", "title": "Priority trees are the sum/min of the stored priorities", "statement": "After any sequence of append(value, priority), popleft() and priority overwrites, the priority structures of PrioritizedBuffer report exactly the sum and the minimum of the priorities of the elements currently stored, return the overwritten priority on every write, return elements in FIFO order, and never hold more than `capacity` elements.", "quantifier": "every finite operation sequence, every capacity >= 1, all priorities from an arbitrary monoid (sum over rationals, min over rationals with infinity)", "why_tests_cant": "The binary tree grows, shifts and halves its index interval as a function of the whole history; unit tests fix a few shapes.", "anchors": ["pfrl/collections/prioritized.py: TreeQueue, SumTreeQueue, MinTreeQueue, PrioritizedBuffer.append, PrioritizedBuffer.popleft"]}
{"id": "C04", "title": "Prioritized drawing selects by cumulative priority", "statement": "A single prioritized draw with random position u in [0, total) returns the unique index i with p_0+...+p_{i-1} <= u < p_0+...+p_i, hence each element is selected on an interval of length exactly its priority, elements of zero priority are never selected, and no assertion fails; successive prioritized draws of one sample() call never return the same index twice, and the priorities are left unchanged if they are to be kept.", "quantifier": "every reachable tree, all non-negative rational priorities with positive total, every sequence of draw positions", "why_tests_cant": "It quantifies over a continuum of draw positions and every tree shape.", "anchors": ["pfrl/collections/prioritized.py: SumTreeQueue.prioritized_sample, _find, PrioritizedBuffer.sample"]}
{"id": "C05", "title": "set_last_priority updates exactly the sampled elements", "statement": "If sample(n) is followed directly by set_last_priority(ps), then afterwards each sampled element has its new priority, every other element keeps its old priority, new unprioritised elements will get the largest priority ever assigned (at least 1), calling set_last_priority without a pending sample or sample with a pending one is rejected.", "quantifier": "every reachable buffer, every sampled index set, every list of positive priorities of matching length", "why_tests_cant": "The claim is about the elements that do not change, in every state and for every choice of indices.", "anchors": ["pfrl/collections/prioritized.py: PrioritizedBuffer.sample, set_last_priority"]}
{"id": "C06", "title": "Appending between sample and priority update never corrupts priorities", "statement": "If append is called between sample(n) and set_last_priority(ps), every sampled element that is still stored receives the priority computed for it and no other element's priority changes.", "quantifier": "every buffer, every capacity, every interleaving of append calls between sample and set_last_priority", "why_tests_cant": "The failure needs a full buffer and an interleaved append, a schedule unit tests do not exercise.", "anchors": ["pfrl/collections/prioritized.py: PrioritizedBuffer.append, PrioritizedBuffer.set_last_priority", "pfrl/agents/dqn.py: DQN._learner_loop"]}
{"id": "C07", "title": "Crash at any byte leaves the persistent queue recoverable", "statement": "If a process appends items to a persistent queue directory and dies at an arbitrary byte of the data/index files (torn writes included), reopening the directory succeeds and yields exactly the items whose append had completed (all index and data bytes written), in order, restricted to the last chunks needed for maxlen; nothing partial or reordered is ever returned, and further appends after the reopen are again recoverable. The limit a reopened queue reports is the one the directory was created with.", "quantifier": "every history of sessions, every item content, every chunk size, every crash point inside any write of any session", "why_tests_cant": "Crash points are every byte offset of every write; a test can only kill a process at a few of them.", "anchors": ["pfrl/collections/persistent_collections.py: _ChunkReader, _ChunkWriter, PersistentRandomAccessQueue"]}
{"id": "C08", "title": "Reopening with an ancestor keeps the newest data", "statement": "Opening a persistent queue whose ancestor chain contains more than maxlen items yields the newest maxlen items of the chain (data of the nearer ancestor takes precedence over that of the farther one).", "quantifier": "every chain of ancestor directories, every content, every maxlen", "why_tests_cant": "Needs chains of at least three directories with particular fill levels.", "anchors": ["pfrl/collections/persistent_collections.py: PersistentRandomAccessQueue._load_ancestor, _ChunkReader.read_chunks"]}
{"id": "C09", "title": "n-step replay windows", "statement": "For every environment id, every transition of every episode appended to ReplayBuffer(num_steps=n) produces exactly one stored experience: the window of that transition and the next up-to-n-1 transitions of the same episode and environment; windows appear in the order of their first transition, never cross an episode boundary or mix environments, and an unfinished episode has produced all windows that are already complete.", "quantifier": "every interleaving of append/stop_current_episode over any number of environments, every n >= 1, every episode length including lengths shorter than n", "why_tests_cant": "Interleavings of environments, episode lengths and boundaries are unbounded.", "anchors": ["pfrl/replay_buffers/replay_buffer.py: ReplayBuffer.append, stop_current_episode"]}
{"id": "C10", "title": "Episodic buffer: transitions and episodes stay in step and within capacity", "statement": "After any sequence of append/stop_current_episode on EpisodicReplayBuffer, the flat list of stored transitions is exactly the concatenation of the stored episodes in order, the number of stored transitions never exceeds capacity, only whole oldest episodes are evicted, and never more than necessary.", "quantifier": "every operation sequence over any number of environments, every capacity (None or natural number)", "why_tests_cant": "Eviction depends on the lengths of all previous episodes.", "anchors": ["pfrl/replay_buffers/episodic.py: EpisodicReplayBuffer"]}
{"id": "C11", "title": "Persistent episodic buffer keeps episodes and transitions in step", "statement": "The same agreement between stored transitions and stored episodes as for the in-memory episodic buffer holds for PersistentEpisodicReplayBuffer with a capacity.", "quantifier": "every operation sequence, every capacity", "why_tests_cant": "The disagreement appears only after the capacity is exceeded.", "anchors": ["pfrl/replay_buffers/persistent.py: PersistentEpisodicReplayBuffer", "pfrl/replay_buffers/episodic.py: EpisodicReplayBuffer.stop_current_episode"]}
{"id": "C12", "title": "Loading a saved buffer respects the capacity of the loading buffer", "statement": "save followed by load restores exactly the stored experiences in order, and after load() the buffer never holds more experiences than its own capacity.", "quantifier": "every saved content, every pair of capacities of the saving and the loading buffer, every later append sequence", "why_tests_cant": "Requires relating two buffers with different parameters for every content.", "anchors": ["pfrl/replay_buffers/replay_buffer.py: ReplayBuffer.save, load", "pfrl/replay_buffers/episodic.py: load"]}
{"id": "C13", "title": "batch_experiences aggregates n-step windows correctly", "statement": "For every batch of experiences, entry i of the batch has the state and action of the first transition, the next state of the last transition, reward sum_j gamma^j r_j over the window, terminal flag true iff some transition of the window is terminal, and discount gamma^(window length); next actions are provided iff every last transition has one.", "quantifier": "every list of non-empty windows, every gamma", "why_tests_cant": "All window lengths and batch sizes.", "anchors": ["pfrl/replay_buffer.py: batch_experiences"]}
{"id": "C14", "title": "Replay updates happen exactly on schedule", "statement": "ReplayUpdater.update_if_necessary(t) performs n_times_update updates exactly when the buffer holds at least replay_start_size experiences (and, for episodic updates, at least batchsize episodes) and t is a multiple of update_interval; every non-episodic update is given batchsize experiences stored at distinct positions (the call to sample can never fail).", "quantifier": "every buffer length, iteration number, interval, start size, batch size accepted by the constructor", "why_tests_cant": "The schedule ranges over all iteration counts and buffer sizes.", "anchors": ["pfrl/replay_buffer.py: ReplayUpdater"]}
{"id": "C15", "title": "Random sub-sequences are contiguous and as long as requested", "statement": "random_subseq(seq, L) returns seq itself if len(seq) <= L and otherwise a contiguous block of exactly L elements of seq, for every random outcome; every start offset is possible. sample_episodes(n, max_len) draws the offsets of different episodes independently: every combination of blocks is possible.", "quantifier": "every sequence, every L, every outcome of the generator", "why_tests_cant": "All lengths and offsets.", "anchors": ["pfrl/replay_buffer.py: random_subseq"]}
{"id": "C16", "title": "train_agent runs exactly the requested number of steps", "statement": "train_agent performs act/step/observe exactly until the step counter reaches `steps` (unless a successful score ends it at an episode end), sets the counter from step_offset, passes reset=True exactly when max_episode_len is reached or the environment asks for it, calls every hook once per step with consecutive step numbers, saves a checkpoint at every multiple of checkpoint_freq except at the last step, never steps the environment after the end of an episode without resetting it, and saves exactly one final snapshot.", "quantifier": "every environment behaviour (oracle for done/needs_reset/rewards), every steps, step_offset, max_episode_len, checkpoint_freq and success rule", "why_tests_cant": "Ranges over all environment behaviours.", "anchors": ["pfrl/experiments/train_agent.py: train_agent"]}
{"id": "C17", "title": "train_agent_batch counts steps per environment", "statement": "train_agent_batch advances the counter by num_envs per iteration, stops at the first iteration at which the counter reaches `steps`, calls hooks and checks checkpoints for every individual step number exactly once in increasing order, and resets exactly those environments whose episode ended.", "quantifier": "every number of environments, every environment behaviour, every steps and offset", "why_tests_cant": "All environment behaviours and batch sizes.", "anchors": ["pfrl/experiments/train_agent_batch.py: train_agent_batch"]}
{"id": "C18", "title": "Asynchronous training assigns each global step once and finishes once", "statement": "Under any interleaving of any number of worker processes, every global step number 1..steps is obtained by exactly one worker, each worker sees strictly increasing numbers, the shared counter never exceeds steps + n_workers - 1, and at most one worker saves the final agent; if all workers terminate normally exactly one does.", "quantifier": "every schedule of every number of workers, every environment behaviour", "why_tests_cant": "Quantifies over all schedules.", "anchors": ["pfrl/experiments/train_agent_async.py: train_loop"]}
{"id": "C19", "title": "Resuming asynchronous training honours step_offset", "statement": "train_agent_async started with a step offset counts steps from that offset, like train_agent and train_agent_batch do.", "quantifier": "every offset and number of steps", "why_tests_cant": "Only visible on resumed runs.", "anchors": ["pfrl/experiments/train_agent_async.py: train_agent_async, train_loop"]}
{"id": "C20", "title": "Evaluator runs once per evaluation interval", "statement": "Over any non-decreasing sequence of calls evaluate_if_necessary(t, ...), an evaluation is performed exactly when t has entered a later multiple-of-eval_interval bucket than the last evaluated bucket; max_score is the largest mean score seen and the best agent is saved exactly when it strictly increases.", "quantifier": "every sequence of time stamps and scores, every interval >= 1, every step offset", "why_tests_cant": "All call sequences and scores.", "anchors": ["pfrl/experiments/evaluator.py: Evaluator.evaluate_if_necessary, evaluate_and_update_max_score"]}
{"id": "C21", "title": "Asynchronous evaluator: one evaluation per interval under any schedule", "statement": "For any interleaving of concurrent evaluate_if_necessary calls from several processes, no two of them evaluate for the same interval slot, the score file header is written exactly once before any row, and the shared maximum score equals the maximum of all recorded means.", "quantifier": "every schedule of every number of processes and calls", "why_tests_cant": "Quantifies over all schedules.", "anchors": ["pfrl/experiments/evaluator.py: AsyncEvaluator"]}
{"id": "C22", "title": "Batch evaluation returns the first n episodes", "statement": "Batch evaluation with n_episodes returns exactly n scores, namely those of the n episodes that were started first (ordered by start), independent of which environments finish earlier; with n_steps it returns a non-empty set of complete episodes whose total length is within n_steps or one truncated episode.", "quantifier": "every number of environments, every episode length and reward sequence, every n", "why_tests_cant": "Selection bias by fast environments shows only over all relative speeds.", "anchors": ["pfrl/experiments/evaluator.py: _batch_run_episodes"]}
{"id": "C23", "title": "Evaluation episodes always start from a fresh recurrent state", "statement": "At the first step of every evaluation episode the agent's recurrent state has been reset, also at the first episode of the next evaluation run.", "quantifier": "every environment behaviour, every n_steps / n_episodes setting", "why_tests_cant": "Depends on where the step budget cuts the last episode.", "anchors": ["pfrl/experiments/evaluator.py: _run_episodes", "pfrl/agents/dqn.py: batch_observe"]}
{"id": "C24", "title": "Multiprocess vector environment equals the serial one", "statement": "For every command sequence (reset with any mask, step, seed, close) the results returned by MultiprocessVectorEnv are those of SerialVectorEnv over the same environments (seed() returns the values of the environments in the first and nothing in the second; after close() the first rejects every call), for every interleaving of the worker processes, and no call deadlocks as long as it passes one action per environment.", "quantifier": "every schedule of the workers, every environment behaviour, every command sequence", "why_tests_cant": "Quantifies over all schedules.", "anchors": ["pfrl/envs/multiprocess_vector_env.py: MultiprocessVectorEnv, worker", "pfrl/envs/serial_vector_env.py: SerialVectorEnv"]}
{"id": "C25", "title": "Frame stacking shows the last k frames of the current episode", "statement": "After reset and any number of steps, a stacked observation consists of exactly the last k frames of the current episode, oldest first, with the reset frame repeated if fewer than k frames exist; in the vectorised version this holds per environment for any reset mask.", "quantifier": "every k >= 1, every sequence of resets/steps, every mask", "why_tests_cant": "All histories and masks.", "anchors": ["pfrl/wrappers/atari_wrappers.py: FrameStack", "pfrl/wrappers/vector_frame_stack.py: VectorFrameStack"]}
{"id": "C26", "title": "Time limit wrapper signals reset exactly at the limit", "statement": "ContinuingTimeLimit leaves observations, rewards and done untouched and reports needs_reset exactly from the max_episode_steps-th step after the last reset on (or when the environment itself asks for a reset); stepping before the first reset is rejected.", "quantifier": "every environment behaviour, every limit, every step/reset history", "why_tests_cant": "All histories.", "anchors": ["pfrl/wrappers/continuing_time_limit.py: ContinuingTimeLimit"]}
{"id": "C27", "title": "Frame skipping sums rewards and returns the latest frames", "statement": "MaxAndSkipEnv repeats the action until skip steps were taken or the episode ended, returns the exact sum of the rewards of the executed steps, the done flag and info of the last executed step, and the pixel-wise maximum of the last two frames executed.", "quantifier": "every environment behaviour, every skip", "why_tests_cant": "Early termination within a skip window depends on the environment.", "anchors": ["pfrl/wrappers/atari_wrappers.py: MaxAndSkipEnv"]}
{"id": "C28", "title": "Episodic life wrapper: real resets only at real game overs", "statement": "EpisodicLifeEnv.reset() resets the underlying game exactly when the game was really over (or needs a reset), otherwise it advances one no-op step; a life loss that is not a game over is reported as done.", "quantifier": "every behaviour of the underlying game (lives, done, needs_reset)", "why_tests_cant": "All game behaviours.", "anchors": ["pfrl/wrappers/atari_wrappers.py: EpisodicLifeEnv"]}
{"id": "C29", "title": "Action/reward transforming wrappers", "statement": "NormalizeActionSpace maps [-1,1] affinely and bijectively onto [low, high] with -1 to low and 1 to high; ScaleReward multiplies every reward by exactly the scale and otherwise changes nothing; reward clipping returns the sign.", "quantifier": "every action, bound and reward", "why_tests_cant": "Algebraic laws over all values.", "anchors": ["pfrl/wrappers/normalize_action_space.py", "pfrl/wrappers/scale_reward.py", "pfrl/wrappers/atari_wrappers.py: ClipRewardEnv"]}
{"id": "C30", "title": "Epsilon schedules", "statement": "LinearDecayEpsilonGreedy's epsilon starts at start_epsilon, is monotone, always lies between start and end, equals end_epsilon from decay_steps on; exponential decay never goes below end_epsilon; the selected action is the greedy one unless the random draw is below epsilon. decay_steps is at least 1 here: decay_steps = 0 is accepted by the constructor but fails with a division by zero at t = 0. AdditiveGaussian's actions lie within the bounds.", "quantifier": "every t, start, end, decay, every random outcome", "why_tests_cant": "All t and parameters.", "anchors": ["pfrl/explorers/epsilon_greedy.py"]}
{"id": "C31", "title": "GAE advantages and value targets", "statement": "PPO's advantages are adv_t = sum_{l>=0} (gamma*lambda)^l delta_{t+l} with delta_t = r_t + gamma*nonterminal_t*V(s_{t+1}) - V(s_t), summed to the end of the stored episode, and v_teacher_t = adv_t + V(s_t); with lambda = 1 the target is the discounted return bootstrapped at the end.", "quantifier": "every episode, gamma, lambda, value function", "why_tests_cant": "All episode lengths and values.", "anchors": ["pfrl/agents/ppo.py: _add_advantage_and_value_target_to_episode"]}
{"id": "C32", "title": "PPO minibatches and sequence splitting lose nothing they should keep", "statement": "Splitting to a maximal length partitions every sequence into consecutive pieces of length <= max; minibatches of the flat dataset all have exactly the minibatch size and use every transition at least `epochs` times and at most one time more than any other per pass; recurrent minibatches contain exactly the requested number of transitions, in order, and drop fewer than one minibatch.", "quantifier": "every dataset, minibatch size, number of epochs, every shuffle outcome", "why_tests_cant": "All shapes and shuffles.", "anchors": ["pfrl/agents/ppo.py: _limit_sequence_length, _yield_minibatches, _yield_subset_of_sequences_with_fixed_number_of_items"]}
{"id": "C33", "title": "PPO/TRPO consume every transition in exactly one update", "statement": "Every transition observed in training mode ends up in exactly one update dataset, or is still pending; the dataset at an update is grouped by environment and episode without crossing an episode end, an update happens at exactly those observes at which at least update_interval transitions are pending, and nothing is kept afterwards.", "quantifier": "every sequence of batch_act/batch_observe calls over any number of environments, done/reset patterns", "why_tests_cant": "All done/reset patterns over parallel environments.", "anchors": ["pfrl/agents/ppo.py: PPO._batch_observe_train, _update_if_dataset_is_ready, _flush_last_episode", "pfrl/agents/trpo.py"]}
{"id": "C34", "title": "A2C returns", "statement": "A2C's n-step returns satisfy R_t = r_t + gamma*mask_{t+1}*R_{t+1} bootstrapped with the last value, i.e. the discounted sum of rewards up to the first episode end (or bootstrapped value); with GAE the return is the lambda-return. Returns never leak across episode ends.", "quantifier": "every reward, mask and value sequence, every gamma and tau", "why_tests_cant": "All patterns of episode ends inside the window.", "anchors": ["pfrl/agents/a2c.py: _compute_returns"]}
{"id": "C35", "title": "A2C can be resumed with a step offset", "statement": "train_agent_batch with a positive step_offset works with an A2C agent as it does with offset zero.", "quantifier": "every offset, number of environments and update_steps", "why_tests_cant": "Only visible on resumed runs.", "anchors": ["pfrl/agents/a2c.py: A2C._batch_act_train, _batch_observe_train", "pfrl/experiments/train_agent_batch.py"]}
{"id": "C36", "title": "REINFORCE uses the return of each action", "statement": "The coefficient of the log-probability of the t-th action of an episode is the sum of the rewards received from that action on (r_t + ... + r_T).", "quantifier": "every episode", "why_tests_cant": "With constant rewards (the usual toy test) a wrong offset is invisible.", "anchors": ["pfrl/agents/reinforce.py: REINFORCE._observe_train, accumulate_grad"]}
{"id": "C37", "title": "Off-policy critic targets discount n-step windows correctly", "statement": "For an n-step window, the critic target is sum_j gamma^j r_j + gamma^len * (1-terminal) * Q(next state), for DQN, Double DQN, IQN, TD3, SAC and DDPG.", "quantifier": "every window length, gamma, reward and Q", "why_tests_cant": "Only windows longer than one step reveal the error.", "anchors": ["pfrl/agents/dqn.py", "pfrl/agents/double_dqn.py", "pfrl/agents/td3.py", "pfrl/agents/soft_actor_critic.py", "pfrl/agents/ddpg.py: DDPG.compute_critic_loss"]}
{"id": "C38", "title": "Categorical projection preserves probability and mean", "statement": "Projecting a distribution on shifted atoms onto the fixed support keeps all probabilities non-negative, keeps their total, and keeps the mean whenever all shifted atoms lie within the support (otherwise the mean of the clamped atoms).", "quantifier": "every distribution, support of at least two atoms, every set of target atoms", "why_tests_cant": "Holds for a continuum of inputs, including atoms exactly on the grid.", "anchors": ["pfrl/agents/categorical_dqn.py: _apply_categorical_projection"]}
{"id": "C39", "title": "Running normalisation statistics equal whole-data statistics", "statement": "After any sequence of non-empty batches, EmpiricalNormalization's mean and variance equal the mean and (population) variance of all data seen, independent of how the data was split into batches; once `until` samples are reached the statistics no longer change; inverse undoes forward where no clipping occurs.", "quantifier": "every sequence of batches of every size", "why_tests_cant": "All partitions of all data sets.", "anchors": ["pfrl/nn/empirical_normalization.py: EmpiricalNormalization"]}
{"id": "C40", "title": "Off-policy training bookkeeping (DQN, DDPG, TD3, SAC)", "statement": "Each batch_observe in training mode advances the step counter by the number of environments, synchronises the target network exactly at the multiples of target_update_interval, stores exactly one transition per environment (state/action of the last act), ends the stored episode exactly when done or reset; evaluation mode changes none of this.", "quantifier": "every sequence of act/observe calls, modes, done/reset patterns", "why_tests_cant": "All histories.", "anchors": ["pfrl/agents/dqn.py: DQN.batch_act, batch_observe, _batch_observe_train"]}
{"id": "C41", "title": "Saving and loading an agent restores every declared attribute", "statement": "load(d) after save(d) restores the state of every attribute declared in saved_attributes, recursively through nested agents, and leaves every other attribute unchanged; cyclic nestings are rejected at save.", "quantifier": "every tree of nested attributes, every saved content", "why_tests_cant": "All nesting structures.", "anchors": ["pfrl/agent.py: AttributeSavingMixin"]}
{"id": "C42", "title": "ACER trust-region projection", "statement": "The adjusted gradient z satisfies k.z <= delta whenever k is non-zero, equals g when the constraint already holds, and is the closest vector to g satisfying the constraint.", "quantifier": "every g, k, delta in every dimension", "why_tests_cant": "Optimality over a continuum.", "anchors": ["pfrl/agents/acer.py: compute_loss_with_kl_constraint"]}
{"id": "C43", "title": "TRPO line search never accepts a bad step", "statement": "After the line search the policy parameters are either exactly the old ones, or parameters old + 2^-i * step at which surrogate gain is finite and did not decrease and the KL divergence is finite and at most max_kl; the first acceptable step size is taken.", "quantifier": "every gain/KL landscape (including NaN/inf), every max_backtrack", "why_tests_cant": "All landscapes.", "anchors": ["pfrl/agents/trpo.py: TRPO._line_search"]}
{"id": "C44", "title": "Quadratic Q-function: greedy action maximises Q within the action bounds", "statement": "For a QuadraticActionValue with positive definite matrix and action bounds, greedy_actions lies in the bounds and `max` is at least the value of every action within the bounds.", "quantifier": "every mu, positive definite P, bounds, dimension", "why_tests_cant": "Counterexamples need correlated dimensions and mu outside the box.", "anchors": ["pfrl/action_value.py: QuadraticActionValue"]}
{"id": "C45", "title": "Target network synchronisation", "statement": "Hard synchronisation makes the target state equal to the source state for every entry; soft synchronisation makes every entry (1-tau)*target + tau*source (entries that are not floating point are copied).", "quantifier": "every state dict, every tau", "why_tests_cant": "Every mixture of entry types.", "anchors": ["pfrl/utils/copy_param.py: copy_param, soft_copy_param, synchronize_parameters"]}
{"id": "C46", "title": "Time-first flattening lines up with packed sequences", "statement": "flatten_sequences_time_first returns every element exactly once, ordered by time and within one time by sequence; for sequences sorted by decreasing length this is exactly the order of a packed sequence, so flat per-transition data lines up with the model's packed outputs; wrapping and unwrapping packed data (with the batch sizes and sorting indices the library reads off it), and packing and unpacking a one-step batch, change nothing.", "quantifier": "every list of sequences", "why_tests_cant": "All length profiles.", "anchors": ["pfrl/utils/recurrent.py: flatten_sequences_time_first, pack_sequences_recursive, wrap_packed_sequences_recursive, unwrap_packed_sequences_recursive, pack_one_step_batch_as_sequences, unpack_sequences_as_one_step_batch"]}
{"id": "C47", "title": "Linear interpolation hook", "statement": "LinearInterpolationHook sets the value start at step 1, stop at total_steps and beyond, is between start and stop in between and linear.", "quantifier": "every step, total, start, stop", "why_tests_cant": "All steps.", "anchors": ["pfrl/experiments/hooks.py: LinearInterpolationHook"]}
{"id": "C48", "title": "Actor-learner mode never mixes up priorities", "statement": "In actor-learner DQN training with a prioritized replay buffer, under any interleaving of the poller (appending experiences) and the learner (sampling, updating errors), every priority update reaches the transition it was computed for.", "quantifier": "every schedule of poller and learner", "why_tests_cant": "A schedule-dependent race.", "anchors": ["pfrl/agents/dqn.py: DQN._learner_loop, DQN._poll_pipe, DQN.update"]}
{"id": "C49", "title": "Importance-sampling weights", "statement": "With normalisation by max, all importance weights of PrioritizedReplayBuffer lie in (0, 1] and the weight of the least probable stored (or sampled) element is 1; beta increases linearly to exactly 1 and never beyond.", "quantifier": "every set of probabilities and every number of sample calls", "why_tests_cant": "All probability vectors and histories.", "anchors": ["pfrl/replay_buffers/prioritized.py: PriorityWeightError, PrioritizedReplayBuffer"]}
{"id": "C50", "title": "Prioritized episodic buffer stays within capacity", "statement": "PrioritizedEpisodicReplayBuffer never stores more than `capacity` transitions in its episodes, its flat memory has the same transitions, and its capacity accounting never drifts.", "quantifier": "every sequence of appends/episode ends, every capacity", "why_tests_cant": "Depends on all episode lengths.", "anchors": ["pfrl/replay_buffers/prioritized_episodic.py: PrioritizedEpisodicReplayBuffer"]}
{"id": "C51", "title": "One sample() call never returns the same stored element twice", "statement": "PrioritizedBuffer.sample(n, uniform_ratio) returns n elements stored at n distinct positions, also when uniform and prioritized sampling are mixed and when priorities are kept after sampling.", "quantifier": "every reachable buffer, every uniform_ratio, both settings of wait_priority_after_sampling, every outcome of the generator", "why_tests_cant": "Duplicates appear only for particular random outcomes.", "anchors": ["pfrl/collections/prioritized.py: PrioritizedBuffer.sample, SumTreeQueue.uniform_sample, SumTreeQueue.prioritized_sample"]}
{"id": "C52", "title": "Loading an old-format episodic buffer keeps the buffer usable", "statement": "After EpisodicReplayBuffer.load() of a v0.2 file, all stored transitions are available, every transition belongs to a stored episode, and further appends and episode ends work within the capacity.", "quantifier": "every old-format content, every capacity, every later history", "why_tests_cant": "needs an old file whose last episode is unfinished and a later eviction", "anchors": ["pfrl/replay_buffers/episodic.py: EpisodicReplayBuffer.load, stop_current_episode"]}
{"id": "C53", "title": "Recurrent states can be split, joined and masked per sequence", "statement": "Concatenating the recurrent states of single sequences and selecting sequence i again returns its state (zeros for a None state when another state is not None; None when all are None); masking a batched state sets exactly the listed sequences' states to zero and leaves the others unchanged.", "quantifier": "every nested tuple shape, every number of sequences, every set of indices", "why_tests_cant": "nested tuples of arbitrary depth and mixtures of None and tensors", "anchors": ["pfrl/utils/recurrent.py: concatenate_recurrent_states, get_recurrent_state_at, mask_recurrent_state_at"]}
{"id": "C54", "title": "Recurrent batches line up with packed model outputs", "statement": "batch_recurrent_experiences puts the action, reward, terminal flag and discount of step t of episode j at the position where the model's packed output for that step is; the batched recurrent states are the states stored at the start of each episode; next actions are given iff every transition has one.", "quantifier": "every list of non-empty episodes sorted by decreasing length", "why_tests_cant": "misalignment only shows for particular length profiles and is silent", "anchors": ["pfrl/replay_buffer.py: batch_recurrent_experiences"]}
{"id": "C55", "title": "Recurrent sequential models compose their layers", "statement": "RecurrentSequential(x, state) equals applying the layers one after the other, the k-th recurrent layer receiving the k-th entry of the state and producing the k-th entry of the new state (state None means None for each); RecurrentBranched gives each branch the input and its own state.", "quantifier": "every list of layers, recurrent or not, in every order", "why_tests_cant": "all orders of recurrent and non-recurrent layers", "anchors": ["pfrl/nn/recurrent_sequential.py: RecurrentSequential.forward", "pfrl/nn/recurrent_branched.py: RecurrentBranched.forward"]}
{"id": "C56", "title": "A crash at any moment leaves the persistent queue openable", "statement": "Whenever a process using a persistent queue directory is killed, at any point from the moment it starts opening the directory, the directory can be opened again.", "quantifier": "every history of sessions, every crash point, including those while the directory is being created", "why_tests_cant": "Crash points are every effect of every session; the failing ones last microseconds.", "anchors": ["pfrl/collections/persistent_collections.py: PersistentRandomAccessQueue.__init__, _load_meta"]}
{"id": "C57", "title": "Atari reset wrappers return the current observation", "statement": "reset() of NoopResetEnv and of FireResetEnv leaves a game that is not over and returns the latest observation of that game, whatever happens during the steps they make (including the game ending there).", "quantifier": "every game behaviour, every number of no-ops", "why_tests_cant": "The game may end at any of the extra steps.", "anchors": ["pfrl/wrappers/atari_wrappers.py: NoopResetEnv, FireResetEnv"]}
{"id": "C58", "title": "env_modifiers: time step limit and action repetition", "statement": "After make_timestep_limited(env, limit) a step reports done exactly if the environment does or it is at least the limit-th step since the last reset; after make_action_repeated(env, n) a step repeats the action n times or until done, returns the sum of the rewards and otherwise the answer of the last step made.", "quantifier": "every environment behaviour, every history of resets and steps, every limit/n >= 1", "why_tests_cant": "All histories; early termination.", "anchors": ["pfrl/utils/env_modifiers.py: make_timestep_limited, make_action_repeated"]}
{"id": "C59", "title": "Vector environments expose the attributes of their environments", "statement": "action_space, observation_space and spec of SerialVectorEnv and of MultiprocessVectorEnv are those of the first environment, so that either can replace the other.", "quantifier": "every environment", "why_tests_cant": "The attribute is not used by the library itself, so no test notices.", "anchors": ["pfrl/envs/serial_vector_env.py: SerialVectorEnv.__init__", "pfrl/envs/multiprocess_vector_env.py: MultiprocessVectorEnv"]}
{"id": "C60", "title": "A2C updates use exactly the steps since the last update", "statement": "An A2C agent trained from step 0 updates at every update_steps-th observation and no other; the update uses the observations, actions, rewards, episode ends and value predictions of exactly the steps since the previous update, in order, and the observation reached last.", "quantifier": "every history of alternating act/observe calls, with evaluation calls anywhere, every update_steps >= 1", "why_tests_cant": "Storage is written at offsets t - t_start of reused buffers; every history has to be considered.", "anchors": ["pfrl/agents/a2c.py: A2C._batch_act_train, _batch_observe_train, _flush_storage"]}
{"id": "C61", "title": "An A2C agent can be trained by successive training runs", "statement": "A second train_agent_batch with the same A2C agent and the default step_offset works as the first did.", "quantifier": "every agent state reached by training, every update_steps", "why_tests_cant": "Only visible when one agent object is trained twice.", "anchors": ["pfrl/agents/a2c.py: A2C._batch_act_train, _batch_observe_train", "pfrl/experiments/train_agent_batch.py"]}
{"id": "C62", "title": "REINFORCE updates once per batchsize finished episodes", "statement": "The optimizer steps exactly when batchsize episodes have finished since the last step; the gradient it applies covers exactly the actions of these episodes, each once; backward_separately does not change the applied gradients; episodes cut off by a reset contribute nothing.", "quantifier": "every history of alternating act/observe calls, every batchsize >= 1, both modes", "why_tests_cant": "All histories, including resets between finished episodes.", "anchors": ["pfrl/agents/reinforce.py: REINFORCE"]}
{"id": "C63", "title": "Discrete action values agree with each other", "statement": "For discrete, distributional and quantile action values: the greedy action's value is max, no action has a larger value (for distributions: mean; for quantiles: average), advantages are at most zero, and the distribution/quantiles reported for the maximum are those of that action.", "quantifier": "every vector of values, every set of distributions and quantiles", "why_tests_cant": "Statements about all actions for all values, including ties.", "anchors": ["pfrl/action_value.py: DiscreteActionValue, DistributionalDiscreteActionValue, QuantileDiscreteActionValue"]}
{"id": "C64", "title": "Advantage learning and DPP targets follow their operators on n-step windows", "statement": "The targets of AL, PAL and DPP are T Q + alpha (Q - max Q), T Q + alpha max(Q(s,a) - max Q(s), Q(s',a) - max Q(s')) and Q(s,a) + T_L Q - L Q(s), with T the n-step Bellman operator that stops at terminal states.", "quantifier": "every window, gamma, alpha, network and operator L", "why_tests_cant": "Windows longer than one step, terminal flags and indices all interact.", "anchors": ["pfrl/agents/al.py: AL", "pfrl/agents/pal.py: PAL", "pfrl/agents/dpp.py: AbstractDPP"]}
{"id": "C65", "title": "Value losses", "statement": "The Huber loss is half the squared error up to 1 and linear with slope at most 1 beyond, and zero only for equal values; importance weights of 1 leave DQN, categorical and IQN losses unchanged and a weight multiplies exactly its example's contribution; the quantile loss weights under- and overestimation by tau and 1 - tau; the errors handed to a prioritized buffer are the absolute errors, one per example in order.", "quantifier": "every prediction, target, weight and threshold", "why_tests_cant": "Holds over a continuum; equality of two differently organised sums for every shape.", "anchors": ["pfrl/agents/dqn.py: compute_value_loss, compute_weighted_value_loss, DQN._compute_loss", "pfrl/agents/categorical_dqn.py: compute_value_loss, compute_weighted_value_loss", "pfrl/agents/iqn.py: compute_eltwise_huber_quantile_loss, compute_value_loss, compute_weighted_value_loss"]}
{"id": "C66", "title": "Restored normalisation statistics are used", "statement": "After load_state_dict, an EmpiricalNormalization normalises exactly as the one that was saved.", "quantifier": "every saved and every receiving normaliser, every input", "why_tests_cant": "A stale cache only shows when the receiving object has already been used, which save/load tests of fresh objects never do.", "anchors": ["pfrl/nn/empirical_normalization.py: EmpiricalNormalization._std_inverse, forward", "pfrl/agents/ppo.py: saved_attributes"]}
{"id": "C67", "title": "The learner thread survives every schedule", "statement": "In actor-learner DQN training with a prioritized replay buffer, sensible settings (minibatch no larger than the replay start size, start size no larger than the capacity) and valid errors, no interleaving of the poller and the learner makes either thread die of an exception.", "quantifier": "every schedule, capacity, minibatch size and number of updates", "why_tests_cant": "A schedule-dependent failure; tests run few schedules.", "anchors": ["pfrl/agents/dqn.py: DQN._learner_loop, DQN._poll_pipe", "pfrl/replay_buffers/prioritized.py: PrioritizedReplayBuffer.sample, update_errors", "pfrl/collections/prioritized.py: PrioritizedBuffer"]}
{"id": "C68", "title": "Cadence of the actor-learner learner", "statement": "Under every schedule, after m updates the learner has synchronised the target network exactly at the updates divisible by target_update_interval / update_interval, has published its model to the actors m // actor_update_interval times, reports t = m * update_interval, has never made more than n_updates updates and leaves its loop only when exactly n_updates were made. As long as the poller has not failed, the number of steps it reports is the number of transitions the actors have sent.", "quantifier": "every schedule and every setting with target_update_interval a multiple of update_interval", "why_tests_cant": "All schedules and intervals.", "anchors": ["pfrl/agents/dqn.py: DQN._learner_loop"]}
{"id": "C69", "title": "An A3C worker learns on-policy from consecutive segments, whatever the other workers do", "statement": "Every training step of a worker belongs to exactly one segment; a segment ends with its t_max-th step or with done or reset, and then and only then the worker makes an update. The update evaluates the network at exactly the parameters, recurrent states and observations from which the segment's actions were sampled; its returns are the discounted rewards up to the end of the segment plus the discounted value of the state reached, which is 0 exactly if done; the losses are weighted as configured. After its update, and only then, the worker acts with the shared parameters as they are after its own optimizer step. Evaluation calls leave all of this unchanged.", "quantifier": "every network, optimizer, configuration and history of training calls, evaluation calls and writes of other workers", "why_tests_cant": "Other processes write the shared parameters at any time, and segment and episode boundaries fall anywhere.", "anchors": ["pfrl/agents/a3c.py: A3C.update, A3C._act_train, A3C._observe_train, A3C.sync_parameters"]}
{"id": "C70", "title": "An ACER worker learns on-policy from consecutive segments and off-policy from pieces of stored episodes", "statement": "Whenever a segment ends (t_max steps, done or reset), and only then, an ACER worker makes one online update from exactly the outputs its actions were sampled from, and then n_times_replay updates if the finished episodes in the replay buffer hold at least replay_start_size (>= 1) steps, none otherwise. A replayed update covers a contiguous piece of one stored episode of min(t_max, length) steps, read from an empty recurrent state, with the rewards and actions of that piece, the distributions the actions were sampled from at the time, and a bootstrap value that is 0 exactly if the piece ends in a terminal state. Every update copies the shared parameters and moves the average parameters. No exception is raised.", "quantifier": "every network, optimizer, configuration, replay capacity, random choice within numpy's contracts, and history of training calls, evaluation calls, loads and writes of other workers", "why_tests_cant": "Combines segment boundaries, episode boundaries, eviction and random sampling over all histories.", "anchors": ["pfrl/agents/acer.py: ACER.update_from_replay, ACER.update_on_policy, ACER._act_train, ACER._observe_train, ACER.load", "pfrl/replay_buffers/episodic.py: EpisodicReplayBuffer.sample_episodes"]}
{"id": "C71", "title": "ACER's targets are Retrace targets", "statement": "The target of the action value of step i of an update is Q_i plus the sum over later steps j of gamma^(j-i) times the product of the trace coefficients after i up to j times the temporal difference r_j + gamma V_(j+1) - Q_j, V after the last step being the bootstrap value; trace coefficients are min(1, rho) for discrete and min(1, rho^(1/d)) for continuous actions. The advantage is this target (with all coefficients 1 if use_Q_opc) minus V_i; the loss is the weighted sum of policy terms and half squared distances to these targets, divided by the number of steps if so configured. Whatever policy collected the data, a target differs from the current estimate by at most the discounted absolute temporal differences.", "quantifier": "every segment, reward, value estimate, importance weight >= 0, configuration", "why_tests_cant": "A closed form for segments of every length.", "anchors": ["pfrl/agents/acer.py: ACER.compute_loss"]}
{"id": "C72", "title": "Truncated importance weighting with bias correction is unbiased", "statement": "Averaged over actions taken by the behaviour policy, ACER's policy-gradient loss is the average over the current policy of -log pi(a) times a mixture of the advantage estimate and Q(a) - v, whose weights lie in [0,1] and which uses Q(a) - v only where pi(a)/mu(a) exceeds the threshold; if the estimates agree it is the on-policy loss, for every behaviour policy and threshold. The weight of the taken action never exceeds the threshold. Without truncation the average is the on-policy one for every advantage estimate.", "quantifier": "all distributions with positive probabilities over finitely many actions, all thresholds, values, advantages", "why_tests_cant": "An identity between expectations over all distributions.", "anchors": ["pfrl/agents/acer.py: compute_policy_gradient_loss, compute_policy_gradient_full_correction, compute_policy_gradient_sample_correction, compute_importance"]}
{"id": "C73", "title": "A loaded ACER agent continues as the saved one", "statement": "Loading a snapshot into a new ACER agent made in the same way restores everything learning depends on: from an episode boundary, the same experience leads to the same updates as in the agent that was saved.", "quantifier": "every agent, snapshot and later experience (without replay buffer)", "why_tests_cant": "The difference is in a network that is only read inside the loss.", "anchors": ["pfrl/agents/acer.py: ACER.saved_attributes, ACER.load"]}
{"id": "C74", "title": "Conjugate gradients solve the linear system", "statement": "For a symmetric positive definite A, a right-hand side b other than 0 and a positive tolerance, conjugate_gradient returns a finite x; with max_iter at least the dimension, the norm of b - A x is below the tolerance; with fewer iterations either that already holds or x minimises x.Ax/2 - b.x over all combinations of b, A b, ..., A^(max_iter-1) b. After any number of iterations (at least one) b.x = x.Ax > 0, and more iterations never raise the objective.", "quantifier": "every dimension, symmetric positive definite A, b, tolerance > 0 and max_iter", "why_tests_cant": "An optimality statement over all matrices and all competitors.", "anchors": ["pfrl/utils/conjugate_gradient.py: conjugate_gradient"]}
{"id": "C75", "title": "TRPO's proposed step is finite, ascends and respects the KL radius", "statement": "For every gradient of the surrogate gain, the full step proposed to the line search is finite; for a gradient other than 0 it has positive inner product with the gradient, and its quadratic KL divergence is at most max_kl (and exactly max_kl up to the 1e-8 added to the denominator and the rounding of the root).", "quantifier": "every positive semidefinite Fisher matrix, damping > 0, gradient, max_kl > 0, number of CG iterations >= 1 (also fewer than the dimension)", "why_tests_cant": "Inexact solves and the zero gradient are not reached by training tests.", "anchors": ["pfrl/agents/trpo.py: TRPO._compute_kl_constrained_step", "pfrl/utils/conjugate_gradient.py: conjugate_gradient"]}
{"id": "C76", "title": "TD3's updates: fresh gradients, clipped double-Q targets, delayed policy, averaged targets", "statement": "Whatever sequence of minibatches TD3 is updated with: both critics step towards the same targets r + discount * (1 - terminal) * min(Q1', Q2') taken at the smoothed action of the target policy; every optimizer step uses the gradient of its own loss only, although backward() of the policy loss also reaches the critic; the policy is updated exactly after every policy_update_delay-th critic update, against the updated critic; and each target network is the exponential moving average, with weight soft_update_tau, of the network as it was after those updates.", "quantifier": "every sequence of minibatches, initial networks and leftover gradients, optimizer, clipping, delay >= 1, tau", "why_tests_cant": "Gradient leakage between losses and the drift of target networks show only over long histories.", "anchors": ["pfrl/agents/td3.py: TD3.update, update_q_func, update_policy, sync_target_network", "pfrl/utils/copy_param.py: soft_copy_param"]}
{"id": "C77", "title": "SAC's and DDPG's updates", "statement": "SAC: both critics step towards the same entropy-regularised targets r + discount * (1 - terminal) * (min(Q1', Q2') - temperature * log_prob) at an action of the current policy; the policy steps against the updated critics with the temperature before the update; a learned temperature steps with the log-probabilities of the policy before its step; the target critics are exponential moving averages of the critics. DDPG: the critic steps towards r + gamma * (1 - terminal) * Q', then the policy steps against the updated critic, the target networks stay. No step uses a gradient left by another loss.", "quantifier": "every sequence of minibatches, initial networks and leftover gradients, optimizer, clipping, fixed or learned temperature", "why_tests_cant": "Order of the steps and leftover gradients affect results only slightly; tests check learning, not each step.", "anchors": ["pfrl/agents/soft_actor_critic.py: SoftActorCritic.update, update_q_func, update_policy_and_temperature, update_temperature", "pfrl/agents/ddpg.py: DDPG.update"]}
{"id": "C78", "title": "A loaded TD3, SAC or DDPG agent continues as the saved one", "statement": "After load() into an agent of the same class, the agent acts and learns as the saved agent would have.", "quantifier": "every saved agent, loading agent and later history of updates and actions", "why_tests_cant": "A test would have to train, save, load into a fresh agent and compare behaviours in training mode.", "anchors": ["pfrl/agents/td3.py: TD3.saved_attributes, _batch_act_train, update", "pfrl/agents/soft_actor_critic.py: SoftActorCritic.saved_attributes, _batch_act_train", "pfrl/agents/ddpg.py: DDPG.saved_attributes, _batch_act_train"]}
{"id": "C79", "title": "PPO's clipped loss", "statement": "PPO's loss is -mean(surrogate) + value_func_coef * mean(value error) - entropy_coef * mean(entropy), where a sample's surrogate is min(ratio, 1+eps) * adv for adv >= 0 and max(ratio, 1-eps) * adv otherwise, and with clip_eps_vf the value error is the worse of the plain squared error and that of the prediction moved to the nearest point of the interval around the old prediction. The loss is never below the unclipped loss, equals it inside the intervals, and gives no gain for moving a sample further once it is out of its interval in the rewarded direction.", "quantifier": "every minibatch, clip_eps >= 0, clip_eps_vf, coefficients", "why_tests_cant": "Sign and clipping-side mistakes still learn on easy tasks.", "anchors": ["pfrl/agents/ppo.py: PPO._lossfun, _elementwise_clip"]}
{"id": "C80", "title": "Standardised advantages", "statement": "With standardize_advantages every PPO update succeeds, recurrent or not; over the dataset the advantages used have mean zero and variance at most one however the minibatches are cut, keep their order, and do not depend on a constant added to all of them.", "quantifier": "every dataset and division into minibatches", "why_tests_cant": "Degenerate datasets (all advantages equal) do not occur in tests.", "anchors": ["pfrl/agents/ppo.py: PPO._update, _update_once_recurrent, _update_recurrent"]}
{"id": "C81", "title": "Explained variance", "statement": "The explained_variance statistic is nan exactly when all returns are equal, otherwise at most 1, exactly 1 when predictions differ from returns by a constant, and 0 for constant predictions.", "quantifier": "every dataset", "why_tests_cant": "All datasets.", "anchors": ["pfrl/agents/ppo.py: _compute_explained_variance", "pfrl/agents/trpo.py"]}
{"id": "C82", "title": "evaluating() switches a network to evaluation mode and back", "statement": "Inside `with evaluating(net)` the network and all its submodules are in evaluation mode; afterwards, also if the block raised, every submodule has the mode it had before, and modules outside the network are untouched.", "quantifier": "every module graph (with shared submodules), every combination of modes, every block that leaves the modes alone", "why_tests_cant": "Mixed modes (frozen BatchNorm or Dropout inside a training network) are not in the tests.", "anchors": ["pfrl/utils/contexts.py: evaluating"]}
{"id": "C83", "title": "to_factorized_noisy makes every linear layer noisy", "statement": "to_factorized_noisy(net) replaces every linear layer of the network, wherever it is nested, by one noisy layer of the same sizes and bias, changes nothing else, and afterwards the network can be used; applying it to a network already noisy changes nothing.", "quantifier": "every network: nesting, shared submodules, a single layer as the network", "why_tests_cant": "Networks with shared layers are not tested.", "anchors": ["pfrl/nn/noisy_chain.py: to_factorized_noisy, _add_noise", "pfrl/nn/noisy_linear.py: FactorizedNoisyLinear.__init__"]}
{"id": "C84", "title": "Reward filters", "statement": "AverageRewardFilter returns the reward minus the exponential moving average of all rewards so far, the current included; NormalizedRewardFilter returns a finite number for every reward, bounded by scale / sqrt(tau), namely the centred reward divided by the root of its exponentially weighted variance (not less than eps).", "quantifier": "every reward sequence, 0 < tau < 1, scale, eps > 0", "why_tests_cant": "Needs all reward sequences, including those starting with zeros.", "anchors": ["pfrl/utils/reward_filter.py"]}
{"id": "C85", "title": "Clipping the gradient norm", "statement": "clip_l2_grad_norm_(params, max_norm) returns the L2 norm of all gradients taken as one vector, scales all of them by one and the same factor in [0,1] (parameters without gradient are left alone) so that their norm is at most max_norm afterwards, leaves them exactly as they are if the norm is at most max_norm - 1e-6, and otherwise reaches max_norm up to the factor norm / (norm + 1e-6).", "quantifier": "every list of gradients, max_norm >= 0", "why_tests_cant": "All vectors and norms.", "anchors": ["pfrl/utils/clip_l2_grad_norm.py: clip_l2_grad_norm_"]}
{"id": "C86", "title": "Dueling heads", "statement": "A dueling network's action values average to the state value over the actions, differ exactly as the advantages do and have the same greedy actions, and do not change when a constant is added to all advantages. The distributional one gives for each action a probability distribution over the atoms with value between v_min and v_max, unchanged when one vector is added to the advantage logits of all actions.", "quantifier": "every number of actions and atoms, every network output", "why_tests_cant": "All outputs; broadcasting along a wrong axis can go unnoticed for square shapes.", "anchors": ["pfrl/q_functions/dueling_dqn.py: DuelingDQN.forward, DistributionalDuelingDQN.forward"]}
{"id": "C87", "title": "Quadratic Q-functions have their maximum at the greedy action", "statement": "FCQuadraticStateQFunction fills a lower triangular matrix row by row with exponentiated diagonal, so the quadratic form is symmetric positive definite for every output of the network; with scale_mu the greedy action is within the action bounds, it is the only maximiser of the Q-values over all actions, the maximum is the state value, and no advantage within the bounds is positive.", "quantifier": "every dimension, every output of the network, every box", "why_tests_cant": "All matrices of all dimensions.", "anchors": ["pfrl/functions/lower_triangular_matrix.py: set_batch_diagonal, set_batch_non_diagonal, lower_triangular_matrix", "pfrl/q_functions/state_q_functions.py: FCQuadraticStateQFunction.forward", "pfrl/functions/bound_by_tanh.py"]}
{"id": "C88", "title": "RMSprop with epsilon inside the square root", "statement": "After any sequence of gradients (missing ones skipped) a parameter's value is the closed form given by exponentially weighted mean squares: divisor sqrt(mean square (minus squared mean if centered) + eps), weight decay added to the gradient, momentum as geometric sum; the same whether the state is created lazily or up front for sharing; parameters and groups do not influence each other. The divisor is never below sqrt(eps) and an uncentered step without momentum is at most lr / sqrt(1 - alpha).", "quantifier": "every gradient sequence, option combination, number of parameters and groups", "why_tests_cant": "All sequences; eps inside versus outside the root differ only slightly in tests.", "anchors": ["pfrl/optimizers/rmsprop_eps_inside_sqrt.py: RMSpropEpsInsideSqrt.step, SharedRMSpropEpsInsideSqrt.__init__"]}
{"id": "C89", "title": "Actors deliver every transition to the learner, in order, and are always answered", "statement": "In actor-learner DQN training, what reaches the replay buffer for an actor is, at every moment and for every interleaving of the processes, an initial part of the sequence of append / stop_current_episode calls that this actor's own acts and observations call for, with nothing lost, repeated, reordered or attributed to another actor; it is all of it once the poller has emptied the actor's pipe. The learner's step counter equals the number of transitions received. While nothing fails, an actor waiting for a reply (get_statistics, save, an acknowledged transfer) is released once the poller has emptied its pipe, and get_statistics reflects all transitions the actor sent before. Recurrent states stored with transitions are those carried before and after the act, and are dropped at episode ends.", "quantifier": "every number of actors, every interleaving of actor actions and polls, every environment behaviour", "why_tests_cant": "Interleavings of several processes cannot be enumerated by tests, and the defects would be rare reorderings.", "anchors": ["pfrl/agents/state_q_function_actor.py: StateQFunctionActor", "pfrl/agents/dqn.py: DQN._poll_pipe, DQN.setup_actor_learner_training"]}
{"id": "C90", "title": "A failing learner ends actor-learner training", "statement": "When the learner or the poller raises an exception during train_agent_async with an actor-learner agent, training ends: the actors stop, and the agent is saved as after an exception of a worker.", "quantifier": "every schedule, every moment of the failure", "why_tests_cant": "Requires all schedules after a failure at an arbitrary moment.", "anchors": ["pfrl/agents/dqn.py: DQN._poll_pipe, DQN._poller_loop, DQN._learner_loop", "pfrl/experiments/train_agent_async.py: train_loop, train_agent_async", "pfrl/agents/state_q_function_actor.py"]}
{"id": "C91", "title": "A DQN agent resumes from a snapshot exactly", "statement": "Saving a snapshot of a DQN agent at the end of an episode, creating a new agent with the same constructor arguments and loading the snapshot into it, gives an agent that from then on computes exactly what the old one would have computed on the same observations and random draws: the same actions, stored transitions, updates and target synchronisations.", "quantifier": "every history before the snapshot and every one after it, uniform and prioritized replay", "why_tests_cant": "All histories before and after; a forgotten counter matters only much later.", "anchors": ["pfrl/agents/dqn.py: DQN.save_snapshot, DQN.load_snapshot, DQN.batch_act, DQN._batch_observe_train, DQN.update", "pfrl/replay_buffers/prioritized.py: PrioritizedReplayBuffer.sample, save, load"]}
{"id": "C92", "title": "Ornstein-Uhlenbeck exploration noise", "statement": "AdditiveOU adds to every greedy action the value of an Ornstein-Uhlenbeck process: its first value is mu (start_with_mu) or a sample of the stationary distribution, and each later one is x + theta (mu - x) plus a normal sample, so it forgets its start as (1 - theta)^k; the start distribution is stationary. When several environments are acted on together (batch_act of DDPG and TD3), the noise of each environment is such a process with the given theta.", "quantifier": "every theta, mu, sequence of actions and normal samples, number of environments and rounds", "why_tests_cant": "All sample sequences and numbers of environments; the noise of one environment looks plausible in any test.", "anchors": ["pfrl/explorers/additive_ou.py: AdditiveOU", "pfrl/agents/ddpg.py: DDPG._batch_act_train", "pfrl/agents/td3.py: TD3._batch_act_train"]}
{"id": "C93", "title": "PPO and TRPO compute values and advantages from each transition's own episode", "statement": "Before updating, every transition in the dataset is given the log-probability of its action, the value of its state and the value of its next state as the model computes them for that transition: for feed-forward models from its own observation, for recurrent ones from the outputs along its own episode, started at the recurrent state stored at the episode's first transition, whatever other episodes are in the dataset. The value of the next state is that of the following transition wherever there is one, the advantages are the lambda-discounted sums of temporal-difference errors within the episode, and the value targets are advantage plus value.", "quantifier": "every number and length of episodes, every model, every discount and lambda", "why_tests_cant": "Episodes of all lengths in all combinations; packing errors only show for particular length patterns.", "anchors": ["pfrl/agents/ppo.py: _add_log_prob_and_value_to_episodes, _add_log_prob_and_value_to_episodes_recurrent, _add_advantage_and_value_target_to_episodes, _make_dataset, _make_dataset_recurrent"]}
{"id": "C94", "title": "The first minibatch of a PPO update is on-policy", "statement": "At the first minibatch of an update of PPO the model is the one that collected the data, so every probability ratio is 1 and the value clipping is inactive: the policy gradient of the first step is the plain advantage-weighted one. This holds for feed-forward models and for recurrent ones with any pieces of episodes as minibatches.", "quantifier": "every dataset, every model, every splitting of episodes", "why_tests_cant": "All datasets and splittings; the discrepancy is numerically small and invisible in learning curves.", "anchors": ["pfrl/agents/ppo.py: PPO._update, PPO._update_once_recurrent, PPO._lossfun, PPO._update_obs_normalizer, PPO.batch_act"]}
{"id": "C95", "title": "Implicit quantile networks evaluate each observation at its own thresholds", "statement": "The values an implicit quantile network computes for a batch are, for every observation and every one of its thresholds, those of this observation and this threshold alone (features times cosine embedding of the threshold, then the output layers), in the right place of the batch; predictions of the loss are those of the action taken; with act_deterministically an observation's action depends on nothing but the observation and is greedy with respect to the average over evenly spaced thresholds.", "quantifier": "every batch size, number of thresholds, hidden size and number of actions", "why_tests_cant": "All shapes; a wrong reshape order agrees with the right one for batch size 1 or one threshold.", "anchors": ["pfrl/agents/iqn.py: CosineBasisLinear, _evaluate_psi_x_with_quantile_thresholds, ImplicitQuantileQFunction, IQN._compute_y_and_taus, IQN._evaluate_model_and_update_recurrent_states"]}
{"id": "C96", "title": "Boltzmann exploration draws from the softmax of the action values", "statement": "The Boltzmann explorer selects, for every agent with discrete actions, action i with probability exp(Q_i / T) / sum_j exp(Q_j / T) of its own observation's values; so better actions are likelier, an action worse by a gap has a probability of at most exp(-gap / T), and none has probability 0.", "quantifier": "every row of action values, every temperature other than 0, every uniform sample, every batch", "why_tests_cant": "A probability law over a continuum of samples; tests only see frequencies.", "anchors": ["pfrl/explorers/boltzmann.py: Boltzmann.select_action", "pfrl/agents/dqn.py: DQN.batch_act"]}
{"id": "C97", "title": "Noisy layers are unbiased and factorised as in the paper", "statement": "A factorised noisy layer adds to every weight its scale times f(r_i) f(r'_j), and to every bias its scale times f(r_i), f(r) = sign(r) sqrt|r|, with one set of samples per call shared by the batch; averaged over the samples the output is that of the linear layer of the means. Initially the mean weights are uniform within 1/sqrt(inputs), and all noise scales are sigma_scale / sqrt(inputs).", "quantifier": "every layer size, parameters, input and sample", "why_tests_cant": "Statements about all samples; a biased or wrongly factorised noise looks like noise in any test.", "anchors": ["pfrl/nn/noisy_linear.py: FactorizedNoisyLinear, init_lecun_uniform, init_variance_scaling_constant"]}
{"id": "C98", "title": "Deterministic acting uses a mode of the policy", "statement": "With act_deterministically, agents with stochastic policies act with a most probable action: no other action has a higher probability (density) under the policy's distribution. For the Gaussian heads this is the mean, with the variances the head was asked for.", "quantifier": "every distribution the function supports, every parameter, every other action", "why_tests_cant": "A maximum over a continuum of actions and all parameters; tests compare with the formula the code itself uses.", "anchors": ["pfrl/utils/mode_of_distribution.py: mode_of_distribution", "pfrl/policies/gaussian_policy.py", "pfrl/policies/softmax_policy.py: SoftmaxCategoricalHead", "pfrl/policies/deterministic_policy.py: DeterministicHead"]}
{"id": "C99", "title": "Nothing is learned from what follows a terminal state", "statement": "The targets an agent of the DQN family or a continuous-control agent computes for a batch do not depend on the next states of the examples whose window ended in a terminal state: replacing these next states (after an episode's end a buffer may hold anything there) leaves every target the same.", "quantifier": "every batch, network, discount, and every replacement of the next states of terminal examples", "why_tests_cant": "All batches and replacements; a leak only shows as a bias of learned values at episode ends.", "anchors": ["pfrl/agents/dqn.py, double_dqn.py, al.py, pal.py, double_pal.py, dpp.py, iqn.py, categorical_dqn.py, categorical_double_dqn.py: _compute_y_and_t / _compute_target_values", "pfrl/agents/ddpg.py, td3.py, soft_actor_critic.py: target computation"]}
{"id": "C100", "title": "A downloaded pretrained model is there when the call returns", "statement": "Any number of processes may ask for pretrained models sharing one data directory, may be killed or fail at any moment, in any interleaving. The files kept in the cache and next to the models are never truncated. When a call returns, the archive of that model has been unpacked completely. No process waits for ever, and a model is downloaded again only after a failure.", "quantifier": "every number of processes, every interleaving of their steps, every point at which a process is killed or an operation fails, every model and archive", "why_tests_cant": "Crashes and races at arbitrary points cannot be enumerated by a test; the tests download once in one process.", "anchors": ["pfrl/utils/pretrained_models.py: cached_download, download_and_store_model, download_model, _get_model_path"]}
{"id": "C101", "title": "Networks and Q-functions compute what their names say, row by row", "statement": "Every network and Q-function class provided can be built with any sizes and any callable nonlinearity and maps a batch to one row of values per observation (and action), each computed from its own row only: fully connected layers with the nonlinearity between them, the action entering at the input or after the first layer, atoms in order of actions, batch normalisation by running statistics in evaluation mode.", "quantifier": "every size, depth, weights, nonlinearity and batch", "why_tests_cant": "The tests run a few sizes and check output shapes, not which row and which layer a value depends on.", "anchors": ["pfrl/nn/mlp.py", "pfrl/nn/mlp_bn.py", "pfrl/nn/atari_cnn.py", "pfrl/q_functions/state_action_q_functions.py", "pfrl/q_functions/state_q_functions.py"]}
{"id": "C102", "title": "Evaluations during training happen on schedule and do not disturb training", "statement": "train_agent_with_evaluation and train_agent_batch_with_evaluation refuse unusable arguments before anything else happens. They evaluate exactly at the first opportunity in each evaluation interval, record for each evaluation the mean return of that evaluation run, and end early only when a score reaches the given threshold. An evaluation does not disturb training: training episodes go on as if it had not happened, whether the evaluation has its own environment or shares the training environment.", "quantifier": "every environment, agent, hook, evaluation interval, number of steps or episodes, and every run of the training loops", "why_tests_cant": "The tests count evaluations of a dummy environment for a few intervals; the interplay of training episodes and evaluations depends on where episodes end.", "anchors": ["pfrl/experiments/train_agent.py: train_agent_with_evaluation, train_agent", "pfrl/experiments/train_agent_batch.py: train_agent_batch_with_evaluation, train_agent_batch", "pfrl/experiments/evaluator.py: Evaluator, eval_performance, batch_run_evaluation_episodes"]}
{"id": "C103", "title": "The ABC test environment rewards exactly the right sequence of actions", "statement": "In the ABC environment of any size, with any mode of actions and observation, the rewards add up to the number of completed sequences of right actions (non-episodic), or reward 1 is given exactly at the last of N right actions from the start (episodic), where the episode ends at the first wrong action. Observations are one-hot and show the state, shifted in every other episode if partially observable and deterministic. A continuous action stands for its largest entry (deterministic) or is drawn by softmax, where with two actions or more no vector makes an action certain.", "quantifier": "every size, mode, sequence of actions and number of episodes", "why_tests_cant": "The learning tests rely on this environment and never check it for long sequences or all modes.", "anchors": ["pfrl/envs/abc.py"]}
{"id": "C104", "title": "Preparing the output directory loses nothing and records the run", "statement": "prepare_output_dir never loses a file that existed: whenever it stops, even when killed half way or on an exception, an existing file is unchanged, or its content is in the backup made first (if backups are on), and start.txt only ever gets longer. If it returns, the directory holds the arguments, environment variables, command line, the time in start.txt and, under git, the answers of git. Without an identifier, the directory is determined by the git version and the command arguments.", "quantifier": "every content of the file system, argument, answer of git or clock, and every point at which the call is stopped", "why_tests_cant": "The tests call it once or twice in an empty directory; crashes between two writes and repeated use with various arguments are not tried.", "anchors": ["pfrl/experiments/prepare_output_dir.py"]}
{"id": "C105", "title": "Agents report the statistics their names promise", "statement": "After any history of acting, observing and updating, get_statistics of each agent returns what its keys say: average_q and the average losses are the means of the latest recorded values (as many as the window holds), values of the taken actions; the decaying averages of the actor-critic agents are exponentially weighted means of the values, entropies and divergences; counts of updates, steps and stored transitions are exact.", "quantifier": "every history of updates and observations, every window or decay", "why_tests_cant": "The tests look only for the presence of keys; what the numbers are after long histories, when windows have overflown, is not compared with anything.", "anchors": ["pfrl/agents/dqn.py: get_statistics", "pfrl/agents/iqn.py", "pfrl/agents/ddpg.py: get_statistics", "pfrl/agents/td3.py: get_statistics", "pfrl/agents/soft_actor_critic.py: get_statistics", "pfrl/agents/ppo.py: get_statistics", "pfrl/agents/trpo.py: get_statistics", "pfrl/agents/a2c.py: get_statistics", "pfrl/agents/a3c.py: get_statistics", "pfrl/agents/acer.py: get_statistics", "pfrl/agents/reinforce.py: get_statistics"]}
{"id": "C106", "title": "The Atari environment as a whole plays by the rules of its game", "statement": "The environment made by make_atari and wrap_deepmind, used by a training loop that resets whenever told, never asks a game for more frames than the limit between two resets, and never asks a finished game for a frame. Each step repeats the action on the game up to four frames, stopping early only at an end or the limit; it pays the sum of the rewards, or its sign; it ends the episode when the game ends or, with episodic lives, when a life is lost; and it shows the previous frames less the oldest and one new frame, made of the last two of four.", "quantifier": "every game, random numbers, options of wrap_deepmind, frame limit and sequence of actions", "why_tests_cant": "Unit tests look at single wrappers around short dummy games; what the wrappers do to each other's calls in the same game depends on where lives, ends and the limit fall.", "anchors": ["pfrl/wrappers/atari_wrappers.py: make_atari, wrap_deepmind, NoopResetEnv, FireResetEnv, EpisodicLifeEnv, MaxAndSkipEnv, ClipRewardEnv, WarpFrame, FrameStack, ScaledFloatFrame, FlickerFrame", "pfrl/wrappers/continuing_time_limit.py"]}
{"id": "C107", "title": "Evaluation statistics and the table in scores.txt are right", "statement": "The statistics of an evaluation are what their names say: mean and median of the returns, sample standard deviation (0 for a single episode), largest and smallest return, and the same of the episode lengths; they exist for every evaluation with at least one episode and exactly one of the two budgets. scores.txt can be read back as a table: the header, then one row for every evaluation in order, each value under its name. It keeps what earlier runs wrote to the same directory.", "quantifier": "every list of returns and lengths, every sequence of evaluations, every agent and environment whose statistics keep their names and contain neither tabs nor newlines, every earlier content of the file", "why_tests_cant": "Tests compare a few scores; that every row has its values under the right header for any set of custom statistics, and that the median of any list is in its middle, concerns all lists.", "anchors": ["pfrl/experiments/evaluator.py: eval_performance, record_stats, write_header, Evaluator, AsyncEvaluator"]}
{"id": "C108", "title": "Tensorboard shows every evaluation", "statement": "With use_tensorboard each statistic of the agent, of the environment and of the returns has a curve of its own with one point per evaluation, and nothing else is recorded. In asynchronous training every evaluation of every process is recorded exactly once and in the order of its process before training returns, and training does return.", "quantifier": "every set of statistics; every interleaving of the training processes, their queues, the writer thread and the main process; every moment at which the stop event is set", "why_tests_cant": "It depends on the order in which processes end, buffers are flushed and the writer thread looks at the event and the queue; tests run one order and do not count the records.", "anchors": ["pfrl/experiments/evaluator.py: record_tb_stats, record_tb_stats_loop, AsyncEvaluator.start_tensorboard_writer, join_tensorboard_writer", "pfrl/experiments/train_agent_async.py", "pfrl/utils/async_.py: run_async"]}
{"id": "C109", "title": "A PPO or TRPO iteration feeds its networks consistently", "statement": "In each iteration of PPO and TRPO the observation normaliser, if there is one, takes in every observation of the collected data exactly once, before any network is used; then every input of policy and value function is made by the agent's own batch_states and phi and normalised with these statistics. TRPO always evaluates its policy on the whole of the data. Recurrent networks are given the sequences of a batch longest first.", "quantifier": "every dataset, batching function, normaliser, minibatch size, number of epochs, random order and number of line search steps", "why_tests_cant": "Tests use the default batching function and cannot see the inputs of the networks.", "anchors": ["pfrl/agents/ppo.py: _update, _update_recurrent, _update_once_recurrent, _update_obs_normalizer", "pfrl/agents/trpo.py: _update, _update_recurrent, _update_obs_normalizer, _update_vf, _update_policy, _line_search"]}
{"id": "C110", "title": "Batching observations keeps rows and components", "statement": "batch_states makes one tensor of every component of the observations: row i of each tensor is the component in the same place of phi(observation i), a batch of arrays is a tensor and a batch of tuples is a tuple. Exactly the uniform batches (arrays of one shape, or flat tuples or lists with the same number of arrays and the same shapes) are accepted; empty, mixed and nested ones raise an exception.", "quantifier": "every list of observations, every feature extractor, every number of components and every shape", "why_tests_cant": "Tests batch a few arrays and one tuple; that no row is swapped or mixed up for any number of observations and components concerns all batches.", "anchors": ["pfrl/utils/batch_states.py: batch_states, _to_recursive"]}
{"id": "C111", "title": "Bounded deterministic policies act within their bounds", "statement": "A policy made of a network, BoundByTanh and DeterministicHead returns actions strictly between the given bounds, whatever the network computes, and all its samples for one observation are equal. The bound is an increasing bijection onto the open interval that sends 0 to its middle. Missing bounds are refused; log_prob and entropy of the point distribution raise an exception.", "quantifier": "every network, every batch, every number of components, every pair of bounds (as real numbers), every number of samples", "why_tests_cant": "Tests evaluate a few inputs; that no output of the network leaves the bounds and that no action inside is out of reach is a claim about all real numbers.", "anchors": ["pfrl/functions/bound_by_tanh.py", "pfrl/nn/bound_by_tanh.py", "pfrl/nn/lmbda.py", "pfrl/distributions/delta.py", "pfrl/policies/deterministic_policy.py"]}
{"id": "C112", "title": "Monitor records every episode once", "statement": "After closing, the statistics of pfrl's Monitor hold the length and the return of exactly the episodes with at least one step, in order and once each, including those cut off by reset and the one in progress; before closing, all but the one in progress. A step of an episode that is over, or before the first reset, is refused.", "quantifier": "every sequence of episodes, each with any number of steps, ended by done or cut off by reset", "why_tests_cant": "Whether an episode is lost or recorded twice depends on how it ended and on the one before; tests play a few sequences.", "anchors": ["pfrl/wrappers/monitor.py: Monitor, _StatsRecorder"]}
{"id": "C113", "title": "Watching, casting and filtering change nothing else", "statement": "Using an environment through Render gives the same replies and states as using it directly, with one picture of the state after every reset and every step that returns; make_rendered the same without pictures after resets. CastObservation changes only the type of observations and keeps the last one before the cast. make_action_filtered, make_reward_filtered and make_reward_clipped change only the actions passed on and the rewards returned; clipped rewards are within the bounds and unchanged if they were.", "quantifier": "every environment, every sequence of resets and steps, every exception raised by the environment or by drawing, every cast and filter", "why_tests_cant": "Tests count a few calls of render; that nothing is disturbed in any environment and after any exception concerns all sequences of calls.", "anchors": ["pfrl/wrappers/render.py", "pfrl/wrappers/cast_observation.py", "pfrl/utils/env_modifiers.py: make_rendered, make_action_filtered, make_reward_filtered, make_reward_clipped"]}
{"id": "C114", "title": "Everything a DQN agent learns from happened in the environment", "statement": "When train_agent runs a DQN agent with a (prioritized) n-step replay buffer, every row of every minibatch the agent learns from is an experience of one episode of the training environment: the state was observed and the action taken at some step k of it, the reward is the discounted sum of the rewards of the next m steps, the next state is the observation after them, terminal says whether the last of them was done and the discount is gamma^m, where m is n, or shorter if the episode was over after them. When train_agent returns, the buffer holds exactly the windows of the episodes that took place (the latest ones if the capacity is smaller), for an episode that is over one for every step. This also holds if train_agent is called again with the same agent.", "quantifier": "all environments (raising ones too), networks, optimizers, explorers, draws, capacities, n >= 1, step hooks, evaluators, arguments of train_agent, numbers of steps and of runs; every outcome of a run", "why_tests_cant": "train_agent, the agent, the buffer and the batching are tested separately, on short runs whose minibatches are not compared with what the environment did; a second call of train_agent after a run that stopped in the middle of an episode does not occur in a test.", "anchors": ["pfrl/experiments/train_agent.py:15-111", "pfrl/agents/dqn.py:310-368", "pfrl/agents/dqn.py:489-549", "pfrl/replay_buffers/replay_buffer.py:40-94", "pfrl/replay_buffers/prioritized.py:67-126", "pfrl/replay_buffer.py:158-204", "pfrl/replay_buffer.py:329-356", "pfrl/agent.py:155-170"]}
{"id": "C115", "title": "Optuna sees every evaluation and prunes at once", "statement": "With OptunaPrunerHook among the evaluation hooks of train_agent_with_evaluation or train_agent_batch_with_evaluation, the trial is told the mean score and the step of every evaluation, in order, no step twice and with increasing steps. If the trial should be pruned after a report, training ends right there: the agent is saved, TrialPruned is raised, no further action is taken and nothing more is reported; otherwise the hook does not end training. The evaluation itself is kept as any other: its row is in scores.txt, and if its score is the best so far, the agent is saved as the best one.", "quantifier": "all environments, agents, other hooks before and after the pruner, evaluation settings, numbers of steps, decisions of the trial, with one or several environments, with or without an evaluation environment of its own", "why_tests_cant": "The test uses a mock trial with one fixed decision in short runs; it does not look at the order of the hook and the saving of the best agent, nor at what the trial has been told when something else raises.", "anchors": ["pfrl/experiments/evaluation_hooks.py:54-103", "pfrl/experiments/evaluator.py:463-521", "pfrl/experiments/train_agent.py:25-111", "pfrl/experiments/train_agent_batch.py:13-147"]}
{"id": "C116", "title": "A recurrent DQN agent remembers exactly the current episode of each environment, and learns with what it remembered", "statement": "Let a DQN agent with recurrent=True and an EpisodicReplayBuffer be used with n environments: it is given n observations with batch_act, then the n outcomes with batch_observe, and so on, with any amount of acting and observing in eval_mode in between, at any time. (a) Whenever it acts in training mode, the action values of the i-th environment are those of the network in the recurrent state obtained by feeding it, with the parameters it had at the time, the observations of the current episode of that environment and no others; the explorer chooses from these values. In particular, right after an episode of that environment ended (done or reset), the state is the zero state. (b) The replay buffer holds the most recent finished episodes that fit in its capacity, step by step as they happened, each step with the recurrent states before and after its observation, and holds the unfinished episodes apart. (c) Every sequence of a minibatch it learns from is a contiguous piece of one episode that happened, and its recurrent states are those the agent had in that episode. (d) Acting and observing in eval_mode change nothing but the state used in eval_mode. (e) When a run of train_agent begins, the agent remembers nothing of earlier runs. Part (e) is refuted: a run that stops because its number of steps is reached does not tell the agent that the episode is over, so the first actions of a next run are chosen with the recurrent state of the interrupted episode.", "quantifier": "for all networks (any function of parameters, observation and state), explorers, learning rules, numbers of environments, observations, outcomes, buffer capacities, update schedules, sampling draws, and all interleavings of training and evaluation", "why_tests_cant": "The states depend on the whole history of observations, episode ends in other environments, mode switches and updates; a leak of a state from one environment, episode or mode to another leaves all shapes intact and shows only as slightly different action values.", "anchors": ["pfrl/agents/dqn.py:106-129", "pfrl/agents/dqn.py:369-389", "pfrl/agents/dqn.py:469-602", "pfrl/replay_buffers/episodic.py:9-74", "pfrl/replay_buffer.py:329-356", "pfrl/experiments/train_agent.py:15-111", "pfrl/agent.py:157-165"]}
{"id": "C117", "title": "Training in a vector environment shows the agent exactly what happened in each environment", "statement": "train_agent_batch on a SerialVectorEnv (or any vector environment that behaves like one), with any agent that returns one action per observation, any step hooks and any evaluator, whether it returns or ends with an exception: (a) the agent's batch_act and batch_observe are called in rounds, each with one entry per environment; (b) for each environment i, the i-th entries of these calls (observation before, action, reward, observation after, done, reset), in order, are exactly the steps taken in environment i, in order: each observation the agent acts on is the one environment i returned last (by reset at the start of an episode, by step within it), the action is the one applied, and the reward and the new observation are those the environment returned; (c) an episode of environment i ends exactly when it is done, when the environment asks for a reset, or when it has max_episode_len steps, and the agent is told so with that step; then and only then the environment is reset (unless the run is over); only the last episode may be unfinished.", "quantifier": "Universally quantified over the environments and their number, the agent, the hooks, the evaluator, all arguments of train_agent_batch, and exceptions raised by any of them.", "why_tests_cant": "Each observation is moved between lists for all environments, masks and a buffer of last observations kept in the vector environment; an error in one of them for one combination of episode ends (for example an observation of the finished episode shown as the first of the next) needs a particular coincidence of episode ends in several environments to show, and then looks like noise.", "anchors": ["pfrl/experiments/train_agent_batch.py:10-141", "pfrl/envs/serial_vector_env.py:6-51", "pfrl/envs/multiprocess_vector_env.py:12-146"]}
{"id": "C118", "title": "Off-policy agents trained in a vector environment store each environment's episodes, and updates see only them", "statement": "A new DQN, DDPG, TD3 or SAC agent (not recurrent) is trained with train_agent_batch on any environments, with any networks, explorer, learning, hooks and evaluator, and the run returns or ends with an exception. Then (a) the agent itself has raised nothing; for each environment, the episodes in the replay buffer's calls are the episodes played in that environment, transition by transition (state, action, reward, next state, terminal), each closed when it ended, the last possibly still open; (b) at every moment, and so at every update, a replay buffer of any capacity and any number of steps n (uniform or prioritized) holds the last windows of one list of windows, in which the windows of each environment are, in order, one for each transition of its finished episodes (its n-step successor transitions in the same episode, fewer at the end) and the complete ones of an open episode: never a window across two episodes or two environments; (c) the step counter ends at step_offset plus the number of steps of all environments together, one update is considered after each of these steps, and target networks of DQN and DDPG are synchronised exactly at the multiples of the interval.", "quantifier": "Universally quantified over environments, their number, policies, learning, hooks, evaluators, arguments, capacities and n, and over the moments of the run.", "why_tests_cant": "The statement combines four components (training loop, vector environment, agent bookkeeping, replay buffer) each of which keeps its own account of which environment is in which episode; tests of each of them cannot show that the accounts agree after every interleaving of episode ends.", "anchors": ["pfrl/experiments/train_agent_batch.py:10-141", "pfrl/agents/dqn.py:489-584", "pfrl/agents/ddpg.py:242-306", "pfrl/agents/td3.py:258-319", "pfrl/agents/soft_actor_critic.py:318-376", "pfrl/replay_buffers/replay_buffer.py:12-73", "pfrl/replay_buffers/prioritized.py:46-115"]}
{"id": "C119", "title": "PPO and TRPO trained in a vector environment learn from every step exactly once, in stretches of single episodes", "statement": "A new PPO or TRPO agent with update_interval > 0 is trained with train_agent_batch on any environments, with any networks, learning, hooks and evaluator, and the run returns or ends with an exception. Then (a) the agent itself has raised nothing, and the steps of all episodes of all environments (state, action, reward, next state, nonterminal) are, each exactly once, those in the datasets of the updates made, plus fewer than update_interval waiting; (b) every update gets at least update_interval and fewer than update_interval + number of environments steps, and its dataset consists of sequences each of which is a stretch of consecutive steps of one episode of one environment (put together for a feedforward agent; cut to max_recurrent_sequence_len for a recurrent agent with that limit).", "quantifier": "Universally quantified over environments, their number, policies, learning, hooks, evaluators and all arguments.", "why_tests_cant": "Which steps are in a dataset depends on how episode ends in several environments fall relative to the updates; a step lost, used twice or attached to the wrong episode changes advantages slightly and breaks no shape.", "anchors": ["pfrl/experiments/train_agent_batch.py:10-141", "pfrl/agents/ppo.py:402-458", "pfrl/agents/ppo.py:673-808", "pfrl/agents/trpo.py:243-316", "pfrl/agents/trpo.py:705-835"]}
{"id": "C120", "title": "PPO and TRPO learn on-policy: an update uses what each step was taken with", "statement": "A new PPO or TRPO agent, feedforward or recurrent (with or without max_recurrent_sequence_len), acts and observes in a batch of environments, switched between training and evaluation mode at any time. (a) In training mode the distribution and value of each environment are what the network says of its observation in the recurrent state of that environment's current episode, and actions are sampled from these distributions. (b) Every update gets exactly the stretches of steps taken since the last update, in order, each step with the log-probability and the value computed when it was taken and the recurrent state it was taken in; and all these steps were taken with the parameters the update starts from. (c) Advantages are the (gamma*lambda)-discounted sums, up to the end of the stretch, of the temporal-difference errors with these values and with the network's value of the next observation after the stretch so far (zero at a terminal step); value targets are advantage plus value; the value used for a next observation is that computed when acting on it. (d) The sequences the update works on contain all these steps in order, and running the network with the parameters the update starts from, from the recurrent state stored in a sequence's first transition, gives exactly the distributions and values of when the steps were taken, so the probability ratio of the first gradient step is 1. (e) Acting and observing in evaluation mode change nothing but the recurrent state of evaluation mode, and there the distribution is what the network says of the observation in the recurrent state of the current evaluation episode, whatever training happens in between.", "quantifier": "Universally quantified over networks, parameters, learning functions, numbers of environments, update intervals, gamma, lambda, sequence length limits, and all sequences of acting, observing and mode switches.", "why_tests_cant": "The values and log-probabilities are recomputed from stored observations and recurrent states when the update comes, not kept from acting; that they agree with those of acting depends on the bookkeeping of recurrent states over episode ends, evaluations and sequence cuts, and a disagreement only makes the objective slightly wrong.", "anchors": ["pfrl/agents/ppo.py:373-458", "pfrl/agents/ppo.py:673-808", "pfrl/agents/ppo.py:36-156", "pfrl/agents/ppo.py:196-245", "pfrl/agents/trpo.py:238-316", "pfrl/agents/trpo.py:700-835"]}
{"id": "C121", "title": "Evaluating a recurrent agent measures its parameters, not what it did before", "statement": "The scores of an evaluation of a recurrent agent (DQN and variants, PPO, TRPO in one or several environments; A3C, ACER, REINFORCE, StateQFunctionActor in one) are those of an agent that has the current parameters and nothing else: whose memory of an environment is empty whenever the environment is reset and then consists of the observations since. In particular scores, actions and what happens in the environment depend only on the parameters, the environment and the random draws, not on earlier evaluations or on training in between, and the evaluation changes no parameters. This holds for every evaluation of an agent whose earlier evaluations returned and were all made with n_episodes >= 1 in one environment, or in a vector of the same number of environments with n_steps or n_episodes. It is FALSE after an evaluation with n_steps in one environment: it stops in the middle of an episode without telling the agent, so the next evaluation starts with what is remembered of the previous one.", "quantifier": "Universally quantified over networks, environments (which may raise), random draws, learning, numbers of environments, evaluation lengths, max_episode_len, and all sequences of training and evaluations.", "why_tests_cant": "The recurrent state of evaluation mode is separate from that of training and survives between evaluations; whether it is empty at the beginning of one depends on how the previous one ended. A stale state changes scores slightly and only from the second evaluation on.", "anchors": ["pfrl/experiments/evaluator.py:12-97", "pfrl/experiments/evaluator.py:100-251", "pfrl/agent.py:63-70", "pfrl/agents/dqn.py:472-507", "pfrl/agents/dqn.py:562-592", "pfrl/agents/ppo.py:685-703", "pfrl/agents/ppo.py:796-808", "pfrl/agents/a3c.py:285-302", "pfrl/agents/acer.py:759-819", "pfrl/agents/reinforce.py:158-174", "pfrl/agents/state_q_function_actor.py:56-121"]}
{"id": "C122", "title": "The losses of distributional agents pull predictions towards the targets and give valid priorities", "statement": "CategoricalDQN and CategoricalDoubleDQN: for every sampled experience the error handed to a prioritized replay buffer is the cross entropy between the target distribution (the chosen next distribution, moved by the n-step return and projected) and the distribution predicted for the action that was taken (probabilities below 1e-10 counting as 1e-10). It is between 0 and 10 ln 10, so it is always a valid priority. No prediction has a smaller error than the entropy of the target (up to 1e-10 per atom), and, if the prediction gives at least 1e-10 to every value possible under the target, its error is that entropy exactly when prediction and target are equal: the minimum of the loss is the target. IQN: the error is the average quantile regression loss of all pairs of a predicted quantile of the action taken and a target quantile, never negative, and 0 exactly when all agree. In all cases there is one error per experience in the order of the batch, earlier contents of the caller's error list are discarded, and the loss is the mean (or sum) over the batch of exactly these errors (times N for IQN), each with its importance weight if there are weights.", "quantifier": "Universally quantified over networks whose outputs are distributions, batches of n-step experiences, supports of at least two atoms, weights, thresholds, batch accumulators and error lists.", "why_tests_cant": "That the cross entropy has its minimum at the target, that clipping cannot make errors negative or unbounded, and that errors keep their experience's position are facts about all distributions and batches; tests compare a few losses with another implementation of the same formula.", "anchors": ["pfrl/agents/categorical_dqn.py:60-104", "pfrl/agents/categorical_dqn.py:147-204", "pfrl/agents/categorical_double_dqn.py:10-52", "pfrl/agents/iqn.py:337-400", "pfrl/agents/iqn.py:176-257"]}
{"id": "C123", "title": "ACER's heads are consistent and copied action distributions are faithful", "statement": "With discrete actions the value an ACER network returns is the policy's average of its action values: advantages average to zero under the policy and the value lies between the smallest and the largest action value. With continuous actions (stochastic dueling networks with n >= 1 draws) the estimated value of an action is, on average over the draws, v plus the action's advantage minus the policy's mean advantage, so it averages to v under the policy whatever n is; n = 0 fails. The copy of an action distribution that is kept as the behaviour policy gives every action the log-probability that the original gives it, for normal distributions, categorical distributions made from logits (what the library's policies return) or from probabilities that torch does not clamp, and Independent wrappers of these; a categorical distribution with clamped probabilities is renormalised by copying. The parameters handed to the trust region are the means and deviations, the log-probabilities, or the probabilities, whatever the wrappers. Other distributions are rejected.", "quantifier": "Universally quantified over finite policies, action values, advantage functions, numbers of draws, and all nestings of supported distributions.", "why_tests_cant": "Unbiasedness is a statement about expectations over all draws; tests see single draws. Importance weights silently become wrong if copies change log-probabilities.", "anchors": ["pfrl/agents/acer.py:113-169", "pfrl/agents/acer.py:172-204"]}
{"id": "C124", "title": "Learning from a prioritized replay buffer keeps priorities, probabilities and weights with the right experiences", "statement": "Over a whole training run with a prioritized replay buffer (transitions of any number of environments appended in any order, n-step windows sharing transitions, episodes cut, eviction at capacity, updates at any time) the following holds after every operation. The buffer holds the latest n-step experiences up to its capacity. The priority of each is (clipped error + eps) ** alpha for the error when it was last learned from, or, if it was not learned from yet, the highest priority given so far when it was stored (1 in the beginning). An update draws different experiences by exactly these priorities. Each drawn experience enters the loss with its own error and its own importance-sampling weight: its probability relative to the least one in the batch or the memory (or to the uniform one) to the power -beta, although the weights travel through a field of transition dicts that are shared between windows. Updates with enough stored experiences, appends and cuts never fail, and beta moves towards 1 by its increment once per update.", "quantifier": "for all capacities but zero, n, exponents, clipping bounds, normalisation modes, power functions, numbers of environments, interleavings of appends, episode ends and updates, random draws and errors", "why_tests_cant": "A priority written to the wrong leaf, a weight overwritten through a shared dict or an element given a stale maximum changes the sampling distribution silently and only after certain histories of eviction and updates; tests look at single calls with small buffers.", "anchors": ["pfrl/replay_buffers/prioritized.py:28-66", "pfrl/replay_buffers/prioritized.py:86-126", "pfrl/collections/prioritized.py:21-116", "pfrl/replay_buffers/replay_buffer.py:33-76", "pfrl/agents/dqn.py:316-362", "pfrl/replay_buffer.py:329-357"]}
{"id": "C125", "title": "Asynchronous A3C training loses no update and learns from nearly every step", "statement": "However the worker processes interleave, no call to an agent fails, and: the shared parameters are the result of all updates of all workers in the order they were made, none lost, none applied twice; every optimizer step starts from the shared parameters as all earlier updates left them; every action is chosen, and every loss computed, with the shared parameters as of the same worker's last update (before its first update: those its network was created with); in training each agent acts on what its environment returned last, a new episode having been started when the last one was over, and observes what the environment returned, as a reset also when the episode is cut at max_episode_len; each worker learns from every step at most once, in consecutive segments. Of the steps a worker has counted all but at most t_max - 1 have been learned from, so when all workers have returned at least steps - processes * (t_max - 1) of them.", "quantifier": "every number of processes, schedule, environment, hook, evaluation, exception, stop or exception event, network, optimizer, configuration", "why_tests_cant": "Quantifies over all interleavings of workers and the boundaries of episodes and segments; a lost, doubled or misattributed update only changes learning speed.", "anchors": ["pfrl/experiments/train_agent_async.py: train_loop, train_agent_async", "pfrl/agents/a3c.py: A3C.act, A3C.observe, A3C.update, A3C.sync_parameters"]}
{"id": "C126", "title": "Asynchronous A3C training returns, and saves, the trained parameters", "statement": "The agent returned by train_agent_async acts with the parameters that result from all updates; so does the agent saved at the end of training; and with make_agent every worker begins with the shared parameters.", "quantifier": "every number of processes, schedule, environment, network, optimizer, configuration", "why_tests_cant": "Which copy of the network an object holds is visible only after training in several processes; the library's own tests avoid the returned agent.", "anchors": ["pfrl/experiments/train_agent_async.py: train_agent_async", "pfrl/agents/a3c.py: A3C.__init__, A3C.saved_attributes, A3C.shared_attributes"]}
{"id": "C127", "title": "Prioritized replay in floating point: sums do not drift and draws are by priority up to rounding", "statement": "Computed in floating point, the total priority of a prioritized buffer stays correct however long it has been used: after any history of appends, removals and overwrites, the reported sum differs from the exact sum of the priorities held now only by a relative error determined by the depth of the tree, never by the length of the history (3e-15 with binary64 and at most 2^20 elements at any time). Every draw of a sampling call picks an element whose cumulative-priority interval contains the generator's outcome times the total, up to 1e-14 of the total; elements already drawn in the call count as zero. A call can fail only if the generator's outcome lies within that error of its upper end. Priorities that were removed are exactly zero afterwards, and if they are to be kept and the drawn elements are distinct, every priority is bit for bit what it was.", "quantifier": "Universally quantified over histories of queue operations, priorities (finite, not negative), generator outcomes in [0, 1) and their number; over every arithmetic with bounded relative error, with IEEE binary64 (round to nearest even, subnormal numbers included, no overflow) as instance.", "why_tests_cant": "Drift shows only after millions of updates, and rounding errors of 1e-15 are invisible to tests of frequencies; a bound needs an argument over all bit patterns and histories.", "anchors": ["pfrl/collections/prioritized.py:119-242", "pfrl/collections/prioritized.py:245-258", "pfrl/collections/prioritized.py:261-312"]}
{"id": "C128", "title": "A prioritized draw never falls off the end of the buffer and never repeats an element, in floating point", "statement": "Drawing from a buffer whose priorities are all positive always succeeds, and the elements drawn by one call are distinct as long as there are enough of them. REFUTED in binary64: with three priorities 0.25, 0.25 + 3*2^-53 and 1 + 2^-51 the generator's largest outcome makes the descent end in an unused slot (AssertionError); with five elements it meets an empty subtree (ValueError); with a fourth element of priority 0.5 two draws of one call return the same element, the second time with priority zero (an infinite importance weight), and if priorities are to be kept that element's priority is lost. By C127 this happens only for outcomes within 1e-14 of the upper end; with exact arithmetic it never happens (C04).", "quantifier": "Witnesses are concrete bit patterns evaluated with the IEEE operations; the complementary positive statement (C127) is universal.", "why_tests_cant": "The failing outcomes have probability about 2^-53 per draw, so tests never meet them; long trainings draw billions of times.", "anchors": ["pfrl/collections/prioritized.py:245-258", "pfrl/collections/prioritized.py:294-312"]}
{"id": "C129", "title": "Asynchronous workers updating shared parameters without locks keep them finite and within reach", "statement": "When several A3C workers call the shared optimizer's step at the same time, then whatever the interleaving of their single reads and writes (no lock is taken, in-place operations read first and write later): without centering, parameters and optimizer state stay finite numbers and the mean of squared gradients never becomes negative; the parameter always equals its initial value plus the contributions of some of the steps, each counted at most once. Without momentum and weight decay, no step moves the parameter by more than lr*G/sqrt(eps) for gradients bounded by G, so after n steps it has moved by at most n times that. If the steps happen not to overlap, the shared memory holds exactly what the sequential optimizer computes from the same gradients, with all options, and no step is lost.", "quantifier": "Universally quantified over the number of workers, schedules (arbitrary sequences of single memory accesses), gradients, initial values and optimizer options.", "why_tests_cant": "Interleavings of single accesses cannot be chosen in a test and their number is exponential; a test run meets a handful of them.", "anchors": ["pfrl/optimizers/rmsprop_eps_inside_sqrt.py:9-64", "pfrl/optimizers/rmsprop_eps_inside_sqrt.py:67-83", "pfrl/agents/a3c.py:207-216", "pfrl/utils/copy_param.py:27-34", "pfrl/experiments/train_agent_async.py:240-252"]}
{"id": "C130", "title": "Asynchronous workers' optimizer steps have the effect of steps made one after the other", "statement": "When several A3C workers call the shared optimizer's step at the same time, the result is that of the same steps in some order. REFUTED, as step takes no lock: (1) for all options without centering and every nonzero gradient, two overlapping steps can move the parameter by one of them only; (2) a step can be lr*|g|/sqrt(eps), where the optimizer's own steps are at most lr/sqrt(1-alpha) (100 instead of 0.1 with alpha=0.99, eps=1e-8, lr=0.01, gradient 1); (3) with two workers and all gradients equal to 1, the mean of squared gradients can exceed every bound; (4) with centering, overlapping steps can take the root of a negative number: the parameter becomes nan and stays so whatever happens later. C129 gives what does hold.", "quantifier": "Each refutation is for all options meeting its hypotheses, with an explicit schedule of single memory accesses; (3) for every bound.", "why_tests_cant": "Races of this kind need particular interleavings of single accesses, which a test cannot force, and their effects look like noise.", "anchors": ["pfrl/optimizers/rmsprop_eps_inside_sqrt.py:44-62", "pfrl/optimizers/rmsprop_eps_inside_sqrt.py:67-83", "pfrl/agents/a3c.py:207-216", "pfrl/experiments/train_agent_async.py:240-252"]}
{"id": "C131", "title": "Exploration and annealing schedules in floating point are probabilities, monotone and accurate", "statement": "Computed in floating point, the linearly decayed epsilon is always a number in [0, 1], for every start and end value in [0, 1], number of decay steps and time; it equals the start value at time 0 and the end value after the decay, is monotone in time during the decay and never beyond the start value, and deviates from the exact line by at most 5*2^-53. An epsilon of 1 always explores and an epsilon of 0 never does. The importance-sampling exponent beta of prioritized replay never decreases, never exceeds 1, stays 1 once there, and after k samples deviates from min(1, beta0 + k(1-beta0)/betasteps) by at most k*2^-51.", "quantifier": "Universally quantified over all binary64 start and end values in [0, 1], all step counts up to 2^53, all times and all numbers of samples; arithmetic is IEEE binary64 with rounding to nearest even.", "why_tests_cant": "Rounding depends on all 53 bits of each number and accumulates over millions of steps; tests sample a few values and compare with a tolerance.", "anchors": ["pfrl/explorers/epsilon_greedy.py:8-12", "pfrl/explorers/epsilon_greedy.py:53-76", "pfrl/replay_buffers/prioritized.py:28-40", "pfrl/replay_buffers/prioritized.py:65"]}
{"id": "C132", "title": "In floating point, epsilon never falls below its end value and beta is 1 after betasteps samples", "statement": "The linearly decayed epsilon never falls below end_epsilon (documented as its minimal value), and beta has reached 1 after betasteps samples. REFUTED in binary64: decaying from 1.0 to 0.1, over any number of steps, epsilon is below 0.1 at the last step of the decay and goes up to 0.1 at the next; with beta0 = 0.4 and 3 or 6 steps, beta is still below 1 after them. C131 bounds both errors.", "quantifier": "The first witness is for every number of decay steps; the second consists of concrete runs evaluated with the IEEE operations.", "why_tests_cant": "The deviations are a few units in the last place; tests compare with tolerances.", "anchors": ["pfrl/explorers/epsilon_greedy.py:71-76", "pfrl/replay_buffers/prioritized.py:35-38", "pfrl/replay_buffers/prioritized.py:65"]}
{"id": "C133", "title": "A2C in a vector environment learns from every step exactly once, with returns that respect the ends of the episodes", "statement": "When A2C is trained in a vector environment, the agent raises nothing, and every update uses the next update_steps rounds: the steps of all environments' episodes, in order, each in exactly one update, with fewer than update_steps rounds left at the end. The return of a step (plain or with generalized advantage estimation) is computed along that environment's own episode only: it stops at the step that ended the episode, whether by a terminal state or because the episode was cut, and otherwise continues with the current model's value of the observation reached last. The value predictions used are those the model gave when the agent acted.", "quantifier": "Universally quantified over all environments, numbers of environments, episode lengths, models, optimizer steps, hooks, evaluators, update_steps >= 1, discounts and GAE parameters, and over runs that end with an exception; runs start at step offset 0 with a new agent.", "why_tests_cant": "Episode ends fall anywhere within the update window, independently in each environment; tests check that training runs and improves.", "anchors": ["pfrl/agents/a2c.py:110-287", "pfrl/experiments/train_agent_batch.py:8-124"]}
{"id": "C134", "title": "Exact fitting of the targets of DQN, Double DQN, AL and PAL finds the optimal policy", "statement": "On every finite decision problem with discount below 1: if the Q table is repeatedly replaced by one that fits, on average over the possible transitions, the targets the agent computes with the previous table as its target network, then from some iteration on every greedy policy earns at least as much as any other policy from every state, and the largest entry of each row approaches the optimal value. For DQN and Double DQN (with synchronized networks) every entry approaches the optimal action value. For advantage learning and persistent advantage learning this holds for every alpha in [0, 1), as documented; advantage learning enlarges the gap of each action to the best by the factor 1/(1 - alpha), and persistent advantage learning by no more than that. The condition on alpha is needed: for alpha = 1 entries may diverge, for every alpha > 1 no greedy policy may ever be optimal.", "quantifier": "Universally quantified over all finite problems (states, actions, rational probabilities and rewards, terminal steps), all initial tables, all discounts in [0, 1) and all alpha in [0, 1); limits are over infinitely many iterations.", "why_tests_cant": "A limit statement for all problems and initial values; tests train a network on one small problem and check the return.", "anchors": ["pfrl/agents/dqn.py:387-404", "pfrl/agents/double_dqn.py:12-42", "pfrl/agents/al.py:7-85", "pfrl/agents/pal.py:7-85", "pfrl/replay_buffer.py:157-212"]}
{"id": "C135", "title": "Exact fitting of the targets of dynamic policy programming finds the optimal policy and lets the values of worse actions fall without bound", "statement": "On every finite decision problem with discount below 1: if the table of action preferences is repeatedly replaced by one that fits, on average over the possible transitions, the targets that DPP (softmax expectation), DPPL (log-sum-exp) or DPPGreedy (max) computes with the previous table as its target network, then from some iteration on every greedy policy earns at least as much as any other policy from every state. After k fits every entry is within a constant, the same for all k, of k times the difference between the optimal value of the action and the optimal value of the state: the preferences of optimal actions stay bounded and those of all other actions fall linearly without bound. This holds for every eta > 0 and stays true if the softmax or log-sum-exp is computed with any bounded error.", "quantifier": "Universally quantified over all finite problems (states, actions, rational probabilities and rewards, terminal steps), all initial tables, all discounts in [0, 1), all eta > 0 and all bounded errors of the operator; over infinitely many iterations.", "why_tests_cant": "The statement is about infinitely many iterations of an operator that has no fixed point; a test runs for a number of steps and sees finite numbers.", "anchors": ["pfrl/agents/dpp.py:10-87", "pfrl/agents/dpp.py:91-137", "pfrl/action_value.py:78-79", "pfrl/replay_buffer.py:157-212"]}
{"id": "C136", "title": "Categorical DQN with a wide enough support has the action values and the policies of DQN; a support that contains all returns may not be wide enough", "statement": "On every finite decision problem with discount below 1: let the table of return distributions be repeatedly replaced by the mixture of the target distributions that categorical DQN (or categorical double DQN with synchronized networks) computes with the previous table as its target network. If the reward of every step plus the discounted value of either end of the support stays within the support, then every table consists of probability distributions, their means are exactly the action values that DQN would have, every mean approaches the optimal action value, and from some iteration on every greedy policy is optimal. It suffices that the support contains 0 and every reward is within 1 - gamma times its ends. It does not suffice that every return of every policy lies within the support: then no greedy policy may ever be optimal.", "quantifier": "Universally quantified over all finite problems (states, actions, rational probabilities and rewards, terminal steps), numbers of atoms >= 2, evenly spaced supports, initial distributions and discounts in [0, 1); limits are over infinitely many iterations.", "why_tests_cant": "The bias from projecting onto a support that is too narrow shows up as a policy that is slightly worse than optimal, for ever; a test of the projection on examples does not relate it to the policy that is learned.", "anchors": ["pfrl/agents/categorical_dqn.py:7-57", "pfrl/agents/categorical_dqn.py:107-145", "pfrl/agents/categorical_double_dqn.py:10-52", "pfrl/action_value.py:97-160", "pfrl/replay_buffer.py:157-212"]}
{"id": "C137", "title": "With exact value predictions the advantages and returns of PPO, TRPO, A2C, A3C and ACER are unbiased", "statement": "On every finite decision problem, for every policy: if the value predictions are exactly the values of the policy then, given the state, the action and everything before, the expectation of the value target (PPO, TRPO) and of the return (A2C with and without GAE, A3C) over all that may follow is exactly the value of the action, and the expectation of the advantage is what the action is worth more than the state. This holds for every lambda, at every place of an episode, segment or window, and whatever the rule by which collecting stops, as long as the rule looks only at the past. For ACER it holds when actions are taken by any other policy: the expected Retrace target and advantage are those of the policy that is being learned, for any importance weights, with and without Q_opc; for continuous actions the expected target of the state value is its value. With complete episodes PPO's and TRPO's targets with lambda = 1 are unbiased whatever the value predictions are. A2C's returns are biased when episodes are cut without a terminal state, PPO's and TRPO's are not.", "quantifier": "Universally quantified over all finite problems, policies (rational probabilities), discounts, lambda, stopping rules, positions, earlier steps, later episodes in the window, importance weights; expectations are exact sums over all trajectories of at most T steps, for every T.", "why_tests_cant": "An expectation over all trajectories and stopping rules; a test sees samples, and a bias of the kind that a wrong bootstrap causes is hidden in their variance.", "anchors": ["pfrl/agents/ppo.py:36-53", "pfrl/agents/trpo.py:12-18", "pfrl/agents/a2c.py:150-167", "pfrl/agents/a2c.py:270-287", "pfrl/agents/a3c.py:130-228", "pfrl/agents/acer.py:459-552"]}
{"id": "C138", "title": "Fitted critics of DDPG, TD3 and SAC evaluate the policy, with averaged target networks", "statement": "On every finite decision problem, for every policy: fitting the critics to the targets the agents compute and then averaging (or, for DDPG, copying) the target critics, again and again, brings critics and target critics to the value of the policy (for SAC: including the entropy bonus of all later choices). The error of the start shrinks by the factor 1 - tau (1 - gamma) in every round, for both critics of TD3 and SAC although each target uses only the smaller one. Fits that are off by eps everywhere leave an error of at most eps / (1 - gamma). The value exists and is unique.", "quantifier": "Universally quantified over all finite problems, policies, discounts in [0,1), averaging rates in (0,1], temperatures, reported log-probabilities, initial target critics, fitting errors and numbers of rounds.", "why_tests_cant": "Tests train on one small environment and look at returns; that errors of two critics and averaged targets cannot add up or drift apart is a statement about all problems and all numbers of rounds.", "anchors": ["pfrl/agents/ddpg.py:130-166", "pfrl/agents/td3.py:160-206", "pfrl/agents/soft_actor_critic.py:193-238", "pfrl/utils/copy_param.py:9-42"]}
{"id": "C139", "title": "Lower losses mean better policies for DDPG, TD3 and SAC, and SAC's temperature moves towards the wanted entropy", "statement": "On every finite decision problem, with critics within eps of what the current policy is worth: if a new policy has, at every state, an expected loss at most slack above that of the current one, then it is worth at least as much from every state and action up to gamma (2 eps + slack) / (1 - gamma); if no policy has a loss lower by more than slack at any state, then no policy is worth more, up to the same error. SAC's loss is smallest, at every state, for the policy that draws by the softmax of the smaller critic divided by the temperature. It has to be every state: a policy with a lower mean loss over the states of a batch can be worth less from all of them, even with exact critics. A gradient step on SAC's temperature raises it if the estimated entropy is below the target, lowers it if above, keeps it if equal.", "quantifier": "Universally quantified over all finite problems, pairs of policies, discounts in [0,1), temperatures, critics with error eps, slack; the temperature part over all non-empty lists of log-probabilities, targets, temperatures and learning rates. The statement about the mean loss is refuted by a two-state problem.", "why_tests_cant": "That descending the loss improves the policy is a theorem about infinitely many future steps (policy improvement); no test can compare values of policies from all states for all problems.", "anchors": ["pfrl/agents/ddpg.py:168-180", "pfrl/agents/td3.py:233-241", "pfrl/agents/soft_actor_critic.py:24-40", "pfrl/agents/soft_actor_critic.py:264-292"]}
{"id": "C140", "title": "REINFORCE's expected update is the gradient of the expected return (refuted: it can be the opposite)", "statement": "Claim: for every finite episodic problem, differentiable policy and batch size, the expected update of REINFORCE (without entropy bonus) is the gradient of the expected return. This is false: with a softmax policy on a problem where the first action earns 3 (then 0) or 0 (then 1), for every parameter, batch size and both ways of accumulating gradients, the expected update is exactly the opposite of the gradient, so training moves towards the worse action. What holds: after every batchsize complete episodes there is exactly one update; its expectation is the gradient of the expected return, plus the gradient of the expected last reward, minus the expected sum over the steps of own reward times score, plus beta times the expected entropy gradient. If all rewards are equal the expected update is exactly the gradient, plus the entropy bonus.", "quantifier": "Universally quantified over all finite problems in which episodes end within some number T of steps, start states, policies with a real parameter (positive probabilities with differentiable logarithms; any one of many parameters), batch sizes, both settings of backward_separately, and beta; expectations are exact sums over all batches of episodes.", "why_tests_cant": "The expectation over all episodes of a gradient, compared with the derivative of another expectation; tests on problems whose rewards are all equal (such as CartPole) see nothing wrong because there the claim holds.", "anchors": ["pfrl/agents/reinforce.py:104-127", "pfrl/agents/reinforce.py:129-156", "pfrl/agents/reinforce.py:176-214"]}
{"id": "C141", "title": "A3C's expected policy update without discount is the gradient of the expected return; with discount or length-dependent loss factors it need not be", "statement": "For every finite episodic problem, differentiable feedforward policy and any value predictions: if episodes end within t_max steps, gamma is 1 and both keep_loss_scale_same and normalize_grad_by_t_max are off, the expected update of a worker through one episode is pi_loss_coef times (the gradient of the expected return plus beta times the expected entropy gradient): value predictions do not bias it, nor does the state of the worker. With discount, for a parameter that matters in one state only, the expected update is the gradient of the expected discounted return times a factor of at least 1. For a parameter shared by several states this fails: with gamma = 1/2 there is a problem where, for every parameter and all value predictions, the expected update is exactly the opposite of the gradient of the expected discounted return. With keep_loss_scale_same or normalize_grad_by_t_max the expected update can point against the gradient even without discount.", "quantifier": "Universally quantified over all finite problems in which episodes end within T <= t_max steps, start states, policies with a real parameter, networks, optimizers, configurations, worker states between two segments and beta; the counterexamples hold for all parameters, networks (zero value predictions for the last one), optimizers and worker states.", "why_tests_cant": "An expectation of gradients over all episodes compared with the derivative of an expectation, for all policies; sampling cannot distinguish a biased direction from noise, and typical test problems use gamma close to 1 and one decision that matters.", "anchors": ["pfrl/agents/a3c.py:130-228", "pfrl/agents/a3c.py:242-283"]}
{"id": "C142", "title": "Uniform replay samples are uniform: every ordered choice of different stored elements is equally likely", "statement": "Drawing k of n different indices (pfrl.utils.random.sample_n_k), and with it RandomAccessQueue.sample and sampling from a replay buffer: if 3k < n, then of all outcomes of the random generator in which the call needs at most r refills, each ordered sequence of k different indices is the result of exactly equally many; hence every index is in equally many samples. The outcomes with which the call needs more than r refills are at most the fraction k^k / 3^(rk) of all. If 3k >= n the result is what numpy's choice without replacement returns.", "quantifier": "Universally quantified over all n, k, numbers r of refills, queues and stored (different) elements; counted over all n^(2k+rk) outcomes of the generator.", "why_tests_cant": "Uniformity over all ordered samples is a statement about counting all generator outcomes, exponentially many; a test can only compare frequencies of a few runs and would not see a small bias from the replacement of duplicates.", "anchors": ["pfrl/utils/random.py:4-28", "pfrl/collections/random_access_queue.py:100-101", "pfrl/replay_buffers/replay_buffer.py:78-80"]}
{"id": "C143", "title": "Importance weights at beta = 1 give the average loss of uniform sampling (refuted: for the default normalisation, and for all but the first element of a batch)", "statement": "Claim: with beta annealed to 1, the weighted loss of a prioritized batch has, up to a positive factor that does not depend on the losses, the mean it would have with uniform sampling. This is false: with weights divided by the largest of the batch (the default) a batch of one is not corrected at all, and the mean can have the other sign than the average loss; and since elements are drawn without replacement while the weights are those for drawing with replacement, a batch of two out of two can, for every normalisation and whatever is drawn, have a weighted sum of the other sign than the average. What holds without normalisation or with 'memory': the first element of each batch has exactly the mean of uniform sampling times a positive factor (1, or the smallest probability times the number of elements); each further element, given the earlier ones, has the mean factor / (1 - rho) times the average over all elements without the earlier ones, where rho is their part of all priorities; relative to the factor it differs from the average by at most (rho + t/N) B / (1 - rho), where t of N elements were drawn before and the losses are at most B.", "quantifier": "Universally quantified over all reachable buffers with positive priorities that do not wait for an update of priorities, losses (any real function of the stored element), configurations with beta = 1 and draws made before; the mean is the exact integral over the uniform random number of the draw, proved unique.", "why_tests_cant": "A statement on exact means over a continuous random number, for all priorities and losses; the error for small batches from large buffers is far below the noise of any sampling test.", "anchors": ["pfrl/replay_buffers/prioritized.py:57-66", "pfrl/replay_buffers/prioritized.py:117-123", "pfrl/collections/prioritized.py:56-105"]}
{"id": "C144", "title": "Actions scaled in floating point stay within the action space (refuted: for bounds whose half-width is not representable)", "statement": "Claim: in floating point arithmetic, NormalizeActionSpace and bound_by_tanh map every action (tanh value) between -1 and 1 to a number between the lower and the upper bound. This holds, with -1 and 1 mapped to the bounds exactly, if half of the width (for bound_by_tanh: and the middle) of the action space is a number of the format, in particular for symmetric bounds; larger actions are never mapped to smaller numbers, and the lower bound is never undercut by NormalizeActionSpace. It is false in general: in binary32 with low = -1 and high = 3 * 2^-25, the action 1 is mapped above high by both. For NormalizeActionSpace the excess is at most the rounding error of the width plus that of the bound.", "quantifier": "Universally quantified over IEEE formats (precision and exponent range), bounds, and actions between -1 and 1.", "why_tests_cant": "There are 2^32 and more values for each of three numbers; the violations occur for rare bounds and are one unit in the last place, so that random tests with tolerances never show them, while environments that assert membership in the action space fail.", "anchors": ["pfrl/wrappers/normalize_action_space.py:17-28", "pfrl/functions/bound_by_tanh.py:4-21"]}
{"id": "C145", "title": "The categorical projection in binary32 never leaves its row and keeps the total probability and the mean up to rounding", "statement": "For at least two (at most 65536) ascending finite atoms, and any batch of rows of finite values with finite nonnegative probabilities adding up to at most 2, the projection onto the atoms computed in IEEE binary32 raises no error, every row of the result has one finite nonnegative entry per atom and equals the projection of that row alone (no probability leaks into other rows), its total differs from that of the row by at most (4n+4) / 2^24 of it plus 4n / 2^150, and its mean position from the exact one (values clipped to the range of the atoms, in units of the first distance, clipped to n-1) by at most (4n+12) / 2^24 of it plus 8n^2 / 2^150. Without the second clipping of the code an index would be out of range for atoms whose distance is rounded down.", "quantifier": "Universally quantified over lists of atoms, batch sizes, values (of any size, also far outside of the atoms) and probabilities in binary32.", "why_tests_cant": "Whether a rounded position rounds up to an index outside of the row depends on the last bits of atoms and values; a test on a few batches does not meet such bits, and a leak into the next row goes unnoticed because all shapes and totals over the batch stay right.", "anchors": ["pfrl/agents/categorical_dqn.py:7-56"]}
{"id": "C146", "title": "The running variance of EmpiricalNormalization is never negative, infinite or NaN in single precision", "statement": "In IEEE binary32, starting from a new EmpiricalNormalization and for every sequence of batches of at most 2^20 values each (fewer than 2^62 in all, batch means at most 2^40 in size, batch variances finite, non-negative and at most 2^82; `until` set or not), experience never fails its assertions on the rate, the running mean is a finite number between the smallest and the largest of the batch means and 0, the running variance is finite, non-negative and at most 2^85, and variance plus eps is finite and at least eps, so that std and the normalised output are computed from real square roots. The limit on the size of a batch is needed: after one value, a single batch of 2^25 equal values can make the variance negative and std NaN.", "quantifier": "for all sequences of batches within the limits, all values of `until` and all eps in (0, 1]", "why_tests_cant": "Rounding errors can make a variance negative only for rare combinations of mean, rate and batch; tests with random data do not meet them, and cannot follow unlimited sequences.", "anchors": ["pfrl/nn/empirical_normalization.py:61-84", "pfrl/nn/empirical_normalization.py:50-59"]}
{"id": "C147", "title": "Soft target updates in single precision stay within rounding distance of the exact exponential average for ever", "statement": "For a float32 parameter and an averaging rate tau between 2^-20 and 1 (a Python number), after any number of soft updates of a target from sources of at most half a bound B (2^-100 <= B <= 2^100; the initial target is at most B), the target is finite, at most B in size, and differs from the exact exponential average of the same sources by at most B * 2^-21 / tau: rounding errors do not build up. For a source that stands still, the distance to it shrinks by the factor 1 - tau per update up to that bound. The bound cannot be dropped: with tau = 0.01 a target that starts from 0 and follows a source 1 stops 50 * 2^-24 below 1 and stays there for ever.", "quantifier": "for all rates in [2^-20, 1], all initial targets, all sequences of sources of any length", "why_tests_cant": "Errors that build up over millions of updates do not show in tests of a few updates, which compare with a tolerance.", "anchors": ["pfrl/utils/copy_param.py:9-22"]}
{"id": "C148", "title": "Freshly initialised linear layers keep the mean square of what passes through them", "statement": "For every input of a linear layer initialised with init_lecun_normal(scale) on its weight and zeros on its bias (if it has one), averaged over independent standard draws, every output has mean zero and mean square scale^2 times the mean square of the inputs, and different outputs are uncorrelated; with init_chainer_default, which the library's networks use, the mean square is kept exactly, whatever the number of inputs and outputs.", "quantifier": "for all inputs, sizes, scales, with and without bias, and all distributions of uncorrelated draws of mean 0 and variance 1", "why_tests_cant": "Tests see single draws; the claim is about averages over all draws, for all inputs and sizes.", "anchors": ["pfrl/initializers/lecun_normal.py:5-10", "pfrl/initializers/chainer_default.py:9-21"]}
