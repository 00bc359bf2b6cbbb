# Machine-checked model of pfrl

Source under study: `/repo` (pfnet/pfrl), read as text only.  Nothing of it is executed.

## Layout

* `properties.jsonl` - the claims (C01, C02, ...).
* `rocq/theories/Base.v` - meaning given to Python constructs (exceptions, list indexing, bounded deques).
* `rocq/theories/M_*.v` - shallow Gallina models, one per source file or group of functions.  No proofs.  Every
  definition cites the file and lines it mirrors and says where it simplifies.
* `rocq/theories/S_*.v` - small specifications the property statements are written in; independent of the
  models' helper functions.
* `rocq/theories/P_*.v` - lemmas.
* `rocq/theories/C*.v` - one file per property (or small group): theorem(s) closed by `exact`, an `Example`
  showing the hypotheses are met by a concrete non-trivial case, and `Print Assumptions`.
* `MANIFEST.json` - claim -> theorem names and status.
* `seeded/LOG.jsonl` - mutation log.

Naming: `Cnn_...` is a proved statement.  `..._refuted` is a proof that the claim as worded in
`properties.jsonl` is false of the model (with witness).  `..._partial` proves only a part; the full statement is kept
next to it as a comment or `Definition`.

## Modelling conventions

* Python exceptions are values: `Err kind`.  Assertions are `Err AssertionError`.
* Randomness, environments, neural networks, wall-clock and the OS scheduler are oracle arguments (universally
  quantified in the theorems).
* Python ints are `nat`/`Z`.  Python/NumPy/torch floats are exact rationals `Q` (no rounding, no
  NaN/inf unless the definition says so) or, where a transcendental function is needed, `R`.  The exceptions are M_FloatTree.v (C127, C128) and M_FloatSchedule.v (C131, C132): there numbers are IEEE binary64
  numbers and the operations those of the Flocq library (`BinarySingleNaN`), whose definitions are then part of what a
  reader has to trust as a description of Python's floats.
* Objects that are mutated become values that are returned.
* Concurrency is an interleaving semantics of atomic actions; what is atomic is stated with each model.

## Plan per property

The models a property rests on are those its theorem file requires, directly or through other files.

| id | subject | models | proof | status |
|----|---------|--------|-------|--------|
| C01 | RandomAccessQueue is a bounded FIFO sequence | M_RandomAccessQueue | refinement to a list spec, induction over ops | proved |
| C02 | sample_n_k returns k distinct in-range indices | M_RandomAccessQueue, M_SampleNK | invariant over the rejection loop | proved |
| C03 | Priority trees are the sum/min of the stored priorities | M_Prioritized | refinement to a list of values, monoid-generic | proved |
| C04 | Prioritized drawing selects by cumulative priority | M_Prioritized | CDF characterisation by induction on the tree | proved |
| C05 | set_last_priority updates exactly the sampled elements | M_Prioritized | refinement to a list of elements with priorities | proved |
| C06 | Appending between sample and priority update never corrupts priorities | M_Prioritized | witness for eviction between; refinement otherwise | partial (refuted as worded) |
| C07 | Crash at any byte leaves the persistent queue recoverable | M_Persistent, M_RandomAccessQueue | simulation between file bytes and list of completed appends | proved |
| C08 | Reopening with an ancestor keeps the newest data | M_Persistent, M_RandomAccessQueue | witnesses; positive theorems for chains that fit | partial (refuted as worded) |
| C09 | n-step replay windows | M_Prioritized, M_RandomAccessQueue, M_ReplayBuffer | refinement to window spec on each env's history | proved |
| C10 | Episodic buffer: transitions and episodes stay in step and within capacity | M_Episodic, M_RandomAccessQueue, M_ReplayBuffer | invariant over operations | proved |
| C11 | Persistent episodic buffer keeps episodes and transitions in step | M_Episodic, M_RandomAccessQueue, M_ReplayBuffer | invariant; witness | partial (refuted as worded) |
| C12 | Loading a saved buffer respects the capacity of the loading buffer | M_Episodic, M_RandomAccessQueue, M_ReplayBuffer | invariant; witness | partial (refuted as worded) |
| C13 | batch_experiences aggregates n-step windows correctly | M_Batch, M_ReplayBuffer | pointwise equality with sums | proved |
| C14 | Replay updates happen exactly on schedule | M_Batch, M_RandomAccessQueue, M_ReplayBuffer, M_SampleNK | decision rules | proved |
| C15 | Random sub-sequences are contiguous and as long as requested | M_Episodic, M_RandomAccessQueue, M_ReplayBuffer, M_SampleNK | list algebra | proved |
| C16 | train_agent runs exactly the requested number of steps | M_Train | induction over the loop | proved |
| C17 | train_agent_batch counts steps per environment | M_Train | induction over the loop | proved |
| C18 | Asynchronous training assigns each global step once and finishes once | M_Async, M_Train | invariants over all schedules | proved |
| C19 | Resuming asynchronous training honours step_offset | M_Async, M_Train | invariants over all schedules | partial (refuted as worded) |
| C20 | Evaluator runs once per evaluation interval | M_Evaluator, M_Train | induction over calls | proved |
| C21 | Asynchronous evaluator: one evaluation per interval under any schedule | M_AsyncEval, M_Evaluator, M_Train | invariants over all schedules | proved |
| C22 | Batch evaluation returns the first n episodes | M_Evaluator, M_Train | loop invariants | proved |
| C23 | Evaluation episodes always start from a fresh recurrent state | M_Evaluator, M_Train | loop invariants; witness | partial (refuted as worded) |
| C24 | Multiprocess vector environment equals the serial one | M_VectorEnv | confluence / simulation | proved |
| C25 | Frame stacking shows the last k frames of the current episode | M_Wrappers | invariants over step sequences | proved |
| C26 | Time limit wrapper signals reset exactly at the limit | M_Wrappers | state machine | proved |
| C27 | Frame skipping sums rewards and returns the latest frames | M_Wrappers | case analysis; witness | partial (refuted as worded) |
| C28 | Episodic life wrapper: real resets only at real game overs | M_Wrappers | state machine; witness | partial (refuted as worded) |
| C29 | Action/reward transforming wrappers | M_Wrappers | algebra over Q | proved |
| C30 | Epsilon schedules | M_Explorers | algebra | proved |
| C31 | GAE advantages and value targets | M_PPO | induction = closed form | proved |
| C32 | PPO minibatches and sequence splitting lose nothing they should keep | M_PPO | permutation/counting invariants | proved |
| C33 | PPO/TRPO consume every transition in exactly one update | M_PPO | permutation/counting invariants | proved |
| C34 | A2C returns | M_A2C | induction = closed form | proved |
| C35 | A2C can be resumed with a step offset | M_A2C | simulation; witness | partial (refuted as worded) |
| C36 | REINFORCE uses the return of each action | M_Reinforce | closed form; witness | partial (refuted as worded) |
| C37 | Off-policy critic targets discount n-step windows correctly | M_ActionValue, M_Batch, M_ReplayBuffer, M_Targets | closed forms; witness | partial (refuted as worded) |
| C38 | Categorical projection preserves probability and mean | M_ActionValue, M_Batch, M_Categorical, M_ReplayBuffer | sum manipulation | proved |
| C39 | Running normalisation statistics equal whole-data statistics | M_EmpNorm | algebra + induction over batches | proved |
| C40 | Off-policy training bookkeeping (DQN, DDPG, TD3, SAC) | M_OffPolicy | invariant over call sequences | proved |
| C41 | Saving and loading an agent restores every declared attribute | M_Saving | structural induction | proved |
| C42 | ACER trust-region projection | M_AcerKL | algebra | proved |
| C43 | TRPO line search never accepts a bad step | M_LineSearch | induction over iterations | proved |
| C44 | Quadratic Q-function: greedy action maximises Q within the action bounds | M_Quadratic | quadratic forms over Q; witness for 2x2 | partial (refuted as worded) |
| C45 | Target network synchronisation | M_CopyParam | pointwise on state dicts; witnesses | partial (refuted as worded) |
| C46 | Time-first flattening lines up with packed sequences | M_Recurrent | order characterisation | proved |
| C47 | Linear interpolation hook | M_Hooks | algebra | proved |
| C48 | Actor-learner mode never mixes up priorities | M_ActorLearner, M_Prioritized | interleaving semantics; witness; invariant without overflow | partial (refuted as worded) |
| C49 | Importance-sampling weights | M_Prioritized, M_PriorityWeights | algebra / invariants | proved |
| C50 | Prioritized episodic buffer stays within capacity | M_Episodic, M_Prioritized, M_RandomAccessQueue, M_ReplayBuffer | algebra / invariants | partial (refuted as worded) |
| C51 | One sample() call never returns the same stored element twice | M_Prioritized | invariant over draws; witness | partial (refuted as worded) |
| C52 | Loading an old-format episodic buffer keeps the buffer usable | M_Episodic, M_RandomAccessQueue, M_ReplayBuffer | induction over the saved list; witness | partial (refuted as worded) |
| C53 | Recurrent states can be split, joined and masked per sequence | M_Recurrent | induction over the layers | proved |
| C54 | Recurrent batches line up with packed model outputs | M_Batch, M_Recurrent, M_ReplayBuffer | order characterisation | proved |
| C55 | Recurrent sequential models compose their layers | M_Recurrent | pointwise | proved |
| C56 | A crash at any moment leaves the persistent queue openable | M_Persistent, M_RandomAccessQueue | byte-level simulation; witness | partial (refuted as worded) |
| C57 | Atari reset wrappers return the current observation | M_Wrappers | state machines; witness | partial (refuted as worded) |
| C58 | env_modifiers: time step limit and action repetition | M_Wrappers | induction over steps | proved |
| C59 | Vector environments expose the attributes of their environments | M_VectorEnv | pointwise; witness | partial (refuted as worded) |
| C60 | A2C updates use exactly the steps since the last update | M_A2C | induction over calls | proved |
| C61 | An A2C agent can be trained by successive training runs | M_A2C | simulation; witnesses | partial (refuted as worded) |
| C62 | REINFORCE updates once per batchsize finished episodes | M_Reinforce | induction over calls | proved |
| C63 | Discrete action values agree with each other | M_ActionValue | case analysis on each class | proved |
| C64 | Advantage learning and DPP targets follow their operators on n-step windows | M_ActionValue, M_Batch, M_ReplayBuffer, M_Targets | closed forms over Q | proved |
| C65 | Value losses | M_ActionValue, M_Losses | algebra over Q | proved |
| C66 | Restored normalisation statistics are used | M_EmpNorm | simulation; witness | partial (refuted as worded) |
| C67 | The learner thread survives every schedule | M_ActorLearner, M_Prioritized | interleaving semantics; witness | partial (refuted as worded) |
| C68 | Cadence of the actor-learner learner | M_ActorLearner, M_Prioritized | invariant over learner iterations | proved |
| C69 | An A3C worker learns on-policy from consecutive segments, whatever the other workers do | M_A3C | interleaving of workers; refinement to segments | proved |
| C70 | An ACER worker learns on-policy from consecutive segments and off-policy from pieces of stored episodes | M_A3C, M_Acer, M_Episodic, M_RandomAccessQueue, M_ReplayBuffer, M_SampleNK | interleaving of workers; refinement to segments | proved |
| C71 | ACER's targets are Retrace targets | M_AcerLoss | induction = closed form | proved |
| C72 | Truncated importance weighting with bias correction is unbiased | M_AcerLoss | sums over finite distributions | proved |
| C73 | A loaded ACER agent continues as the saved one | M_A3C, M_Acer, M_Episodic, M_RandomAccessQueue, M_ReplayBuffer, M_SampleNK | pointwise; witness | partial (refuted as worded) |
| C74 | Conjugate gradients solve the linear system | M_CG | Krylov-space invariant, induction over rounds | proved |
| C75 | TRPO's proposed step is finite, ascends and respects the KL radius | M_CG | algebra; witness | partial (refuted as worded) |
| C76 | TD3's updates: fresh gradients, clipped double-Q targets, delayed policy, averaged targets | M_ActorCritic, M_Batch, M_Targets | update as program over an explicit gradient store | proved |
| C77 | SAC's and DDPG's updates | M_ActorCritic, M_Batch, M_Targets | same as C76 | proved |
| C78 | A loaded TD3, SAC or DDPG agent continues as the saved one | M_ActorCritic, M_Batch | simulation between saved and loaded agent; witness | partial (refuted as worded) |
| C79 | PPO's clipped loss | M_PPOLoss | case analysis over reals | proved |
| C80 | Standardised advantages | M_PPOLoss | sums over reals; witness | partial (refuted as worded) |
| C81 | Explained variance | M_PPOLoss | algebra over sums | proved |
| C82 | evaluating() switches a network to evaluation mode and back | M_Modules | structural induction over the module graph; witness | partial (refuted as worded) |
| C83 | to_factorized_noisy makes every linear layer noisy | M_Modules | induction over the module tree with heap; witness | partial (refuted as worded) |
| C84 | Reward filters | M_RewardFilter | closed form by induction; witness | partial (refuted as worded) |
| C85 | Clipping the gradient norm | M_ClipGrad | real algebra | proved |
| C86 | Dueling heads | M_Dueling | sums over Q | proved |
| C87 | Quadratic Q-functions have their maximum at the greedy action | M_QuadHead, M_Quadratic | triangular matrices, induction over the dimension | proved |
| C88 | RMSprop with epsilon inside the square root | M_RMSprop | simulation to the closed form | proved |
| C89 | Actors deliver every transition to the learner, in order, and are always answered | M_Actor | invariant over all interleavings (owed calls = delivered + queued) | proved |
| C90 | A failing learner ends actor-learner training | M_ActorProc, M_Async, M_Train | invariant of the waiting process; witness schedule; progress measure | partial (refuted as worded) |
| C91 | A DQN agent resumes from a snapshot exactly | M_Batch, M_DQN, M_Episodic, M_Prioritized, M_PriorityWeights, M_RandomAccessQueue, M_ReplayBuffer, M_SampleNK | simulation between the saved and the loaded agent; witness | partial (refuted as worded) |
| C92 | Ornstein-Uhlenbeck exploration noise | M_Explorers, M_OU | closed form by induction; witness | partial (refuted as worded) |
| C93 | PPO and TRPO compute values and advantages from each transition's own episode | M_Batch, M_PPO, M_PPOData, M_Recurrent | simulation of the heap passes; packing lemmas | proved |
| C94 | The first minibatch of a PPO update is on-policy | M_Batch, M_EmpNorm, M_PPO, M_PPOData, M_Recurrent | equality of model inputs; witness | partial (refuted as worded) |
| C95 | Implicit quantile networks evaluate each observation at its own thresholds | M_ActionValue, M_Batch, M_IQN | reshape lemma, row by row | proved |
| C96 | Boltzmann exploration draws from the softmax of the action values | M_Batch, M_Boltzmann | intervals of the cumulative sums; real analysis | partial (refuted as worded) |
| C97 | Noisy layers are unbiased and factorised as in the paper | M_NoisyLinear | real algebra by induction over rows | partial (refuted as worded) |
| C98 | Deterministic acting uses a mode of the policy | M_Mode | structural induction over the distribution; witness | partial (refuted as worded) |
| C99 | Nothing is learned from what follows a terminal state | M_ActionValue, M_Batch, M_Categorical, M_PAL, M_ReplayBuffer, M_Targets | pointwise agreement of batches; witness | partial (refuted as worded) |
| C100 | A downloaded pretrained model is there when the call returns | M_Pretrained | invariants over all interleavings with crashes; witness | partial (refuted as worded) |
| C101 | Networks and Q-functions compute what their names say, row by row | M_Batch, M_Nets | induction over layers and rows; witnesses | partial (refuted as worded) |
| C102 | Evaluations during training happen on schedule and do not disturb training | M_Evaluator, M_Train, M_TrainEval | compositional invariant over the training loop; witness | partial (refuted as worded) |
| C103 | The ABC test environment rewards exactly the right sequence of actions | M_ABC | closed form of the state by induction over actions; real bounds | proved |
| C104 | Preparing the output directory loses nothing and records the run | M_OutDir | invariant over all prefixes of the list of changes; witness | partial (refuted as worded) |
| C105 | Agents report the statistics their names promise | M_Stats | window and decay lemmas over histories of updates; witnesses | partial (refuted as worded) |
| C106 | The Atari environment as a whole plays by the rules of its game | M_AtariStack, M_Wrappers | invariants carried up through every wrapper; unrolling of one step; witnesses | partial (refuted as worded) |
| C107 | Evaluation statistics and the table in scores.txt are right | M_Scores | the sorted list is a sorted permutation; splitting a joined text gives back its cells | partial (refuted as worded) |
| C108 | Tensorboard shows every evaluation | M_Scores, M_TB | prefixes separate the tags; invariant: recorded, pipe and buffer of each process add up to what it put | partial (refuted as worded) |
| C109 | A PPO or TRPO iteration feeds its networks consistently | M_Batch, M_PPO, M_PPOData, M_PPOUpdate, M_Recurrent | case analysis on the normaliser; the inputs are read off the trace of calls | partial (refuted as worded) |
| C110 | Batching observations keeps rows and components | M_Batch, M_BatchStates | collation as transposition of components; converse by case analysis on shapes | proved |
| C111 | Bounded deterministic policies act within their bounds | M_Bounded | monotonicity and range of tanh; the inverse is explicit | proved |
| C112 | Monitor records every episode once | M_Monitor | invariant over calls: recorded statistics plus the episode in progress | proved |
| C113 | Watching, casting and filtering change nothing else | M_Watch, M_Wrappers | simulation of the wrapped environment by the bare one, command by command | proved |
| C114 | Everything a DQN agent learns from happened in the environment | M_Batch, M_DQN, M_Loop, M_Prioritized, M_PriorityWeights, M_RandomAccessQueue, M_ReplayBuffer, M_SampleNK, M_Train, M_Wrappers | invariant of the loop: buffer, pending windows and learned minibatches are windows of the logged episodes | partial (refuted as worded) |
| C115 | Optuna sees every evaluation and prunes at once | M_Evaluator, M_Pruner, M_Train, M_TrainEval | invariant over programs: reports of the trial equal the evaluations recorded so far | partial (refuted as worded) |
| C116 | A recurrent DQN agent remembers exactly the current episode of each environment, and learns with what it remembered | M_Batch, M_Episodic, M_RandomAccessQueue, M_RecDQN, M_ReplayBuffer, M_SampleNK, M_Train | invariant relating the stored states to the memory function of the trace; episodes of mapped calls; induction over events | partial (refuted as worded) |
| C117 | Training in a vector environment shows the agent exactly what happened in each environment | M_Train, M_VecLoop, M_VectorEnv | Hoare-style invariants of the modelled loop over a vector environment whose members record their calls: between two rounds, each record followed by the agent's view of it agree. | proved |
| C118 | Off-policy agents trained in a vector environment store each environment's episodes, and updates see only them | M_OffPolicy, M_Prioritized, M_RandomAccessQueue, M_ReplayBuffer, M_Train, M_VecAgents, M_VecLoop, M_VectorEnv | Composition of C117 (rounds = records), C40 (calls of the replay buffer per environment) and C09 (contents from calls); the agent invariant `core = calls (what it was told)`; the log of a prefix of calls is a prefix of the log. | proved |
| C119 | PPO and TRPO trained in a vector environment learn from every step exactly once, in stretches of single episodes | M_PPO, M_Train, M_VecAgents, M_VecLoop, M_VectorEnv | Composition of C117 and C33 (the reference of pending transitions); groups between marks lie inside one episode; columns of rounds as a permutation. | proved |
| C120 | PPO and TRPO learn on-policy: an update uses what each step was taken with | M_Episodic, M_PPO, M_PPOAgent, M_PPOData, M_RecDQN, M_ReplayBuffer | invariant relating buffers and recurrent states to notes taken from the trace; per-stretch lemma that running the network from the first state reproduces the linked chain of states; reuse of the GAE sum (C31) and the cutting of sequences (C32) | proved |
| C121 | Evaluating a recurrent agent measures its parameters, not what it did before | M_Batch, M_Episodic, M_EvalRec, M_Evaluator, M_PPO, M_PPOAgent, M_PPOData, M_RandomAccessQueue, M_RecDQN, M_ReplayBuffer, M_SampleNK, M_Train | relational Hoare rules for the evaluation loops: simulation between the agent and an ideal agent whose memory is cleared at resets; refutation by two evaluations of one agent | partial (refuted as worded) |
| C122 | The losses of distributional agents pull predictions towards the targets and give valid priorities | M_ActionValue, M_Batch, M_Categorical, M_DistLoss, M_Losses, M_ReplayBuffer, M_Targets | composition of the target theorems (C37, C38) with the losses; Gibbs' inequality from ln x <= x - 1 over the reals for the minimum; sums over pairs for IQN | proved |
| C123 | ACER's heads are consistent and copied action distributions are faithful | M_AcerHeads | expectations as finite sums, induction over the number of draws; structural induction over distributions for the copies | proved |
| C124 | Learning from a prioritized replay buffer keeps priorities, probabilities and weights with the right experiences | M_PrioUpdate, M_Prioritized, M_PriorityWeights, M_RandomAccessQueue, M_ReplayBuffer | weight fields as a heap indexed by transition identities; invariant linking the priority tree to the event history; refinement to the abstract buffer of C04 | proved |
| C125 | Asynchronous A3C training loses no update and learns from nearly every step | M_A3C, M_A3CAsync, M_Async, M_Train | composition of M_Async.v and M_A3C.v under one scheduler; invariant per process (agent run, alternation, environment, counts) and global (parameters, links); projection to C18 and C69 | proved |
| C126 | Asynchronous A3C training returns, and saves, the trained parameters | M_A3C, M_A3CAsync, M_Async, M_Train | from the invariant of C125; refutations by concrete runs | partial (refuted as worded) |
| C127 | Prioritized replay in floating point: sums do not drift and draws are by priority up to rounding | M_FloatTree, M_Prioritized | induction on the tree with error terms; layout of the queue as contiguous slots; depth bounded by the greatest length held; binary64 from Flocq | proved |
| C128 | A prioritized draw never falls off the end of the buffer and never repeats an element, in floating point | M_FloatTree, M_Prioritized | concrete bit patterns, evaluated | partial (refuted as worded) |
| C129 | Asynchronous workers updating shared parameters without locks keep them finite and within reach | M_Hogwild, M_RMSprop | rely-guarantee: a predicate on the remaining code that is kept by every access of every worker; uninterrupted execution equal to the sequential step | proved |
| C130 | Asynchronous workers' optimizer steps have the effect of steps made one after the other | M_Hogwild, M_RMSprop | explicit schedules evaluated symbolically; induction over rounds for the unbounded mean square; invariant for nan | partial (refuted as worded) |
| C131 | Exploration and annealing schedules in floating point are probabilities, monotone and accurate | M_FloatSchedule, M_FloatTree | monotonicity of rounding; every operation within range, so no overflow; error terms added up | proved |
| C132 | In floating point, epsilon never falls below its end value and beta is 1 after betasteps samples | M_FloatSchedule, M_FloatTree | concrete bit patterns, evaluated; the quotient n/n is exact for all n | partial (refuted as worded) |
| C133 | A2C in a vector environment learns from every step exactly once, with returns that respect the ends of the episodes | M_A2C, M_Train, M_VecA2C, M_VecLoop, M_VectorEnv | invariant relating the stored tensors to the rounds since the last update; returns by induction backwards along each column | proved |
| C134 | Exact fitting of the targets of DQN, Double DQN, AL and PAL finds the optimal policy | M_ActionValue, M_Batch, M_ReplayBuffer, M_Targets | iteration between two operators: almost monotone bounded values converge, the limit solves the optimality equation, contraction gives uniqueness | proved |
| C135 | Exact fitting of the targets of dynamic policy programming finds the optimal policy and lets the values of worse actions fall without bound | M_ActionValue, M_Batch, M_Boltzmann, M_DPP, M_ReplayBuffer, M_Targets | summing the fitted rows: entries are k times an average of Bellman residuals plus bounded terms, contraction bounds the running averages, the gap of suboptimal actions grows linearly | proved |
| C136 | Categorical DQN with a wide enough support has the action values and the policies of DQN; a support that contains all returns may not be wide enough | M_ActionValue, M_Batch, M_Categorical, M_ReplayBuffer, M_Targets | the projection keeps means when nothing is cut off (C38), so the means are an exact DQN iteration and C134 applies; a fixed table of a two-state problem refutes the weaker condition | proved |
| C137 | With exact value predictions the advantages and returns of PPO, TRPO, A2C, A3C and ACER are unbiased | M_A2C, M_A3C, M_AcerLoss, M_PPO | linearity of the expectation over trajectories; all estimates are instances of one recursion whose conditional expectation is computed by induction on the number of steps | proved |
| C138 | Fitted critics of DDPG, TD3 and SAC evaluate the policy, with averaged target networks | M_ActorCritic, M_Batch, M_ReplayBuffer, M_Targets | a contraction argument for pairs of tables: one fit multiplies the error by gamma, averaging mixes it with the old one; existence of the value from C135 on the problem of state-action pairs | proved |
| C139 | Lower losses mean better policies for DDPG, TD3 and SAC, and SAC's temperature moves towards the wanted entropy | M_Boltzmann, M_PolicyLoss | losses are negated one-step worths; monotone contraction for improvement and optimality, Gibbs inequality for the softmax, direct computation for the temperature and the counterexample | proved |
| C140 | REINFORCE's expected update is the gradient of the expected return (refuted: it can be the opposite) | M_Reinforce | derivative of the expectation over episodes by induction on the bound of their length (product rule, probabilities add up to 1); the agent's terms by the refinement of C36; softmax counterexample computed in closed form | partial (refuted as worded) |
| C141 | A3C's expected policy update without discount is the gradient of the expected return; with discount or length-dependent loss factors it need not be | M_A3C | the worker's update by the refinement of C69; the derivative lemma of C140 with discount; the baseline vanishes because the scores have mean 0; closed-form counterexamples | proved |
| C142 | Uniform replay samples are uniform: every ordered choice of different stored elements is equally likely | M_RandomAccessQueue, M_SampleNK | permutations of indices act on the outcomes of the generator and commute with the sampling, so any two samples have equally many outcomes; induction on the refills for the unfinished part | proved |
| C143 | Importance weights at beta = 1 give the average loss of uniform sampling (refuted: for the default normalisation, and for all but the first element of a batch) | M_Prioritized, M_PriorityWeights | the drawn element is determined by the cumulative priorities, so the weighted loss is a step function of the random number (refinement of C51); its mean by summation; uniqueness of the mean by common refinement; counterexamples on a buffer with two elements | partial (refuted as worded) |
| C144 | Actions scaled in floating point stay within the action space (refuted: for bounds whose half-width is not representable) | M_FloatAction | the maps are monotone compositions of correctly rounded operations, so it suffices to evaluate them at the ends; the ends are exact if the half-width is representable; error analysis of the sum otherwise; counterexample by computation in binary32 | partial (refuted as worded) |
| C145 | The categorical projection in binary32 never leaves its row and keeps the total probability and the mean up to rounding | M_FloatAction, M_FloatCategorical | error analysis (Flocq) of the position, of the two shares of an atom and of repeated addition with multiplicative bounds (1 +- 2^-24)^k; the flat scatter is the scatter of each row by induction over the rows | proved |
| C146 | The running variance of EmpiricalNormalization is never negative, infinite or NaN in single precision | M_FloatAction, M_FloatCategorical, M_FloatNorm | the update of the mean cannot pass the mean of the batch (exact difference, or the rate is at most 1 - 2^-22), so the cross term is non-negative; monotonicity of rounding keeps the variance in [0, 2^85]; invariant by induction over the batches | proved |
| C147 | Soft target updates in single precision stay within rounding distance of the exact exponential average for ever | M_FloatAction, M_FloatCategorical, M_FloatCopy | error of one update from Flocq's rounding lemmas (rates rounded to float32 included), then induction over the updates: the error is multiplied by 1 - tau and at most 8 * 2^-24 * B is added | proved |
| C148 | Freshly initialised linear layers keep the mean square of what passes through them | M_Initializers, M_NoisyLinear | outputs as finite sums over the draws; the average is linear, so mean and mean square follow from the first two moments of the draws | proved |

## Trusted base

* Coq 8.16.1's kernel (and its VM, used by `vm_compute` in examples and witnesses).
* The reading of the Python source that the models' comments record line by line, and the conventions above.
* Oracles (networks, optimizers, random generators, environments, schedulers, files) are universally quantified; where
  a contract is needed (e.g. `randint` stays below its bound) it is a hypothesis of the theorem.
* The axioms below.  No axiom is declared in this development; there are no `Admitted` proofs, functors, module types
  or plugins.

`Print Assumptions` stands below every theorem.  "Closed under the global context" for every theorem of the manifest
except the following, which use real numbers of the standard library:

* `ClassicalDedekindReals.sig_forall_dec`:
  `C108_all_recorded_refuted`.
* `ClassicalDedekindReals.sig_forall_dec`, `FunctionalExtensionality.functional_extensionality_dep`:
  `C49_clipping`, `C81_explained_variance`, `C84_average`, `C108_curves`, `C108_all_recorded_partial`, `C123_discrete`, `C123_continuous`, `C127_sum_no_drift`, `C127_draws`, `C134_larger_alpha_may_never_be_optimal`, `C134_alpha_one_may_diverge`, `C136_returns_inside_not_enough`, `C138_ddpg`, `C138_td3`, `C138_sac`, `C138_rounds_exist`, `C139_neg_q_improves`, `C139_neg_q_optimal`, `C139_batch_mean_not_enough`, `C143_one_mean`.
* `ClassicalDedekindReals.sig_not_dec`, `ClassicalDedekindReals.sig_forall_dec`, `FunctionalExtensionality.functional_extensionality_dep`:
  `C39_statistics`, `C39_until`, `C39_frozen`, `C39_order`, `C39_forward`, `C66_load_refuted`, `C66_load_partial`, `C66_new_partial`, `C79_loss`, `C79_pessimistic`, `C79_no_gain`, `C79_first_step`, `C80_standardized`, `C80_recurrent_partial`, `C80_recurrent_refuted`, `C84_normalized_partial`, `C84_bounded_partial`, `C84_normalizes_refuted`, `C85_clip`, `C88_formula`, `C88_groups`, `C88_bounded`, `C92_stationary`, `C94_starts_on_policy_refuted`, `C96_every_discrete_agent_refuted`, `C96_law_partial`, `C96_batch_partial`, `C97_initial_scales_refuted`, `C97_forward`, `C97_unbiased`, `C97_initial_weights_partial`, `C98_unsupported`, `C107_statistics`, `C107_statistics_exist`, `C111_rest`, `C129_finite`, `C129_bound`, `C129_serial`, `C130_lost_refuted`, `C130_spike_refuted`, `C130_unbounded_refuted`, `C130_nan_refuted`, `C134_dqn`, `C134_double_dqn`, `C134_al`, `C134_pal`, `C135_near_max`, `C135_dpp_greedy`, `C136_categorical_dqn`, `C136_categorical_double_dqn`, `C138_worth`, `C148_lecun`, `C148_default`.
* `ClassicalDedekindReals.sig_not_dec`, `ClassicalDedekindReals.sig_forall_dec`, `FunctionalExtensionality.functional_extensionality_dep`, `Classical_Prop.classic`:
  `C49_buffer_weights`, `C49_normalized_weights`, `C49_unnormalized_weights`, `C49_beta_schedule`, `C49_beta_constant`, `C49_priorities`, `C49_priorities_monotone`, `C91_prioritized_partial`, `C91_prioritized_resumes_refuted`, `C96_temperature`, `C98_act_with_mode_refuted`, `C98_mode_partial`, `C98_heads`, `C98_squashed_partial`, `C103_probabilities`, `C111_bound`, `C111_actions`, `C114_prioritized_buffer`, `C122_categorical_dqn`, `C122_categorical_double_dqn`, `C122_minimum`, `C123_copy`, `C123_copy_clamped`, `C123_unsupported`, `C123_params`, `C127_binary64_sum`, `C127_binary64_draws`, `C128_draw_refuted`, `C128_draw5_refuted`, `C128_twice_refuted`, `C131_epsilon`, `C131_epsilon_monotone`, `C131_certain`, `C131_beta`, `C131_beta_stays`, `C132_undershoot_refuted`, `C132_beta_refuted`, `C135_softmax_near`, `C135_logsumexp_near`, `C135_dpp`, `C135_dppl`, `C139_soft_improves`, `C139_soft_optimal`, `C139_softmax`, `C139_temperature`, `C140_gradient_refuted`, `C140_expected_update_partial`, `C140_equal_rewards`, `C141_undiscounted`, `C141_one_state`, `C141_discounted_opposite`, `C141_length_opposite`, `C143_first`, `C143_next`, `C143_bias_partial`, `C143_batch_of_one`, `C143_batch_of_one_refuted`, `C143_batch_of_two_refuted`, `C144_normalized`, `C144_normalized_monotone`, `C144_bounded`, `C144_bounded_monotone`, `C144_symmetric`, `C144_normalized_partial`, `C144_refuted`, `C145_projection`, `C146_running`, `C146_limit_needed`, `C147_tracking`, `C147_constant`, `C147_stalls`.

All of these axioms are the standard library's (`Coq.Reals`, `Coq.Logic`).  Theorems closed under the global context: 398 of 543.

## What is modelled

Line ranges as cited by the comments of the models.

| source | model: lines |
|--------|--------------|
| `pfrl/action_value.py` | M_ActionValue: 45-229; M_Boltzmann: 97; M_DPP: 78-79; M_Dueling; M_Quadratic: 232-324 |
| `pfrl/agent.py` | M_A3C: 63-70; M_Actor: 50-59; M_ActorCritic: 104-133; M_EvalRec: 63-70, 157-165; M_Loop; M_OffPolicy; M_PPOAgent: 63-70; M_RecDQN: 63-70, 157-165; M_Saving: 73-144 |
| `pfrl/agents/a2c.py` | M_A2C: 102-103, 110-148, 150-167, 215-223, 225-248, 261-287, 265-275; M_Stats: 175, 289-294; M_VecA2C: 102-103, 110-287, 129-145, 150-174, 225-248, 261-287 |
| `pfrl/agents/a3c.py` | M_A3C; M_A3CAsync: 44, 68-72, 126-128, 207-216; M_EvalRec: 285-302; M_Hogwild: 207-216; M_Stats |
| `pfrl/agents/acer.py` | M_Acer; M_AcerHeads: 113-204, 131-135, 156-169, 172-180, 183-204; M_AcerKL: 207-249; M_AcerLoss; M_EvalRec: 759-772; M_Stats |
| `pfrl/agents/al.py` | M_Targets: 25-75 |
| `pfrl/agents/categorical_double_dqn.py` | M_Categorical: 10-52; M_DistLoss |
| `pfrl/agents/categorical_dqn.py` | M_Categorical: 7-57,107-145, 7-57, 114-145; M_DistLoss: 60-104,147-204, 60-76, 79-104, 147-177, 179-204, 184; M_FloatCategorical: 7-56; M_Losses: 60-104, 60-76; M_Stats: 173-174 |
| `pfrl/agents/ddpg.py` | M_ActorCritic: 50-300, 58, 130-138, 188-202, 261-263, 265-275; M_OU: 270-274; M_OffPolicy: 243-304, 261-279, 283-304; M_PolicyLoss: 168-180, 173-174; M_Stats: 17, 306-312; M_Targets: 148-166 |
| `pfrl/agents/double_dqn.py` | M_Targets: 12-42 |
| `pfrl/agents/double_pal.py` | M_PAL: 8-71 |
| `pfrl/agents/dpp.py` | M_DPP: 91-137, 104-105, 121-122; M_Targets: 20-87 |
| `pfrl/agents/dqn.py` | M_Actor: 604-645, 616-639, 642-644, 706-708, 739-757; M_ActorLearner: 181-205, 252-254, 358-365, 604-646, 627-632, 644-646, 648-712, 662-686, 663, 686, 710-712, 729-737; M_ActorProc: 604-645, 642-644, 706-708; M_Boltzmann: 488-505, 495-502; M_DQN: 179, 207-268, 310-368, 489-507, 516-549, 794-802; M_IQN; M_Loop; M_Losses: 44-104, 44-69, 72-104, 445-452; M_OffPolicy: 489-584, 489-507, 516-549, 568-584; M_PrioUpdate: 316-362, 316-352, 335, 343; M_RecDQN: 106-129, 207-268; M_Stats: 39-41, 445, 812-819; M_Targets: 387-404, 406-430 |
| `pfrl/agents/iqn.py` | M_DistLoss: 337-400, 337-372, 374-400; M_EvalRec: 402-433; M_IQN; M_Losses: 176-257, 176-208, 211-231, 234-257; M_Stats: 369; M_Targets: 289-335 |
| `pfrl/agents/pal.py` | M_Targets: 25-80 |
| `pfrl/agents/ppo.py` | M_PPO: 36-47, 39-47, 40-44, 50-53, 145-154, 157-178, 160-178, 163-166, 247-257, 251-257, 252-253, 378-458,673-808, 378-391, 402-405, 407-448, 450-458, 673-683, 706-739, 756-810, 759-793, 773-779; M_PPOAgent: 197-244, 373-458, 378-396, 407-458, 673-677,685-740, 679-683,742-810, 693-698,722-733, 759-795; M_PPOData: 36-56, 58-142, 58-107, 101-107,137-142, 104-107,140-142, 110-142, 229-244, 484-492,519-527, 540-604, 706-810; M_PPOLoss: 28-33,631-672, 181-193, 472-493; M_PPOUpdate: 460-632, 465-532, 534-606, 608-632; M_Stats: 23, 809-817 |
| `pfrl/agents/reinforce.py` | M_EvalRec: 158-174; M_Reinforce: 84-88, 92-102, 104-127, 129-156, 176-195, 181-189, 186, 197-207, 209-214; M_Stats |
| `pfrl/agents/soft_actor_critic.py` | M_ActorCritic: 78-352, 84-95, 99-180, 185-191, 193-205,311-317, 207-263, 264-272, 274-309, 332-335, 341-347; M_OffPolicy: 327-374, 337-352, 356-374; M_PolicyLoss: 24-40,264-266, 264-292, 279-288; M_Stats: 19, 376-385; M_Targets: 214-238 |
| `pfrl/agents/state_q_function_actor.py` | M_Actor: 100-118; M_ActorProc: 75-80; M_Boltzmann: 76-91; M_EvalRec: 56-70,78-91 |
| `pfrl/agents/td3.py` | M_ActorCritic: 64-300, 64-74, 94-157, 160-180, 182-231, 233-250, 252-259, 273-275, 281-291; M_OU: 285-290; M_OffPolicy: 267-317, 277-295, 299-317; M_PolicyLoss: 233-241, 238-241; M_Stats: 17, 319-328; M_Targets: 182-206 |
| `pfrl/agents/trpo.py` | M_CG: 555-598; M_LineSearch: 32-56; M_PPO: 243-316,705-835; M_PPOAgent: 238-316; M_PPOData; M_PPOUpdate: 24, 318-413, 318-324,382-413,422-434,463,627-634, 326-380,479-555,608-624; M_Stats: 71, 837-844 |
| `pfrl/collections/persistent_collections.py` | M_Episodic: 282-310; M_Persistent: 98,138 |
| `pfrl/collections/prioritized.py` | M_ActorLearner: 107-110, 111-114, 111-116; M_DQN: 67-126; M_FloatTree: 245-258, 270, 272-276, 294-312, 301-306, 308-310; M_Prioritized: 21-116, 22-34, 39-48, 50-54, 56-105, 107-116, 111-114, 129-131, 140-151, 154-180, 183-196, 198-201, 203-205, 207-223, 225-242, 245-258, 270, 272-276, 278-292, 283-286, 288-290, 294-312, 301-306, 317, 319-323; M_ReplayBuffer: 102 |
| `pfrl/collections/random_access_queue.py` | M_RandomAccessQueue: 13-18, 20-23, 25-26, 31-32, 34-55, 57-78, 80-83, 85-87, 89-98, 100-101; M_SampleNK: 100-101 |
| `pfrl/distributions/delta.py` | M_Bounded: 7-62, 22-62 |
| `pfrl/envs/abc.py` | M_ABC |
| `pfrl/envs/multiprocess_vector_env.py` | M_VectorEnv: 63-64,71-76 |
| `pfrl/envs/serial_vector_env.py` | M_VectorEnv: 19-21 |
| `pfrl/experiments/evaluation_hooks.py` | M_Pruner: 54-103; M_TrainEval: 13-24 |
| `pfrl/experiments/evaluator.py` | M_A3CAsync: 18-96; M_ActorProc: 524-662; M_AsyncEval; M_EvalRec: 67-97, 89-97; M_Evaluator: 12-63, 21, 30-54, 400-521; M_Scores: 254-313; M_TB: 336-366; M_TrainEval: 418-442, 463-471 |
| `pfrl/experiments/hooks.py` | M_Hooks: 27-58, 48-52, 54-58 |
| `pfrl/experiments/prepare_output_dir.py` | M_OutDir |
| `pfrl/experiments/train_agent.py` | M_AtariStack: 40-74; M_Hooks: 50-62; M_Loop: 15-111, 43-45; M_RecDQN: 15-111, 43-45; M_Train: 25-111, 48, 49-96, 60-61, 76-86, 88-96; M_TrainEval: 114-221, 171-221, 183-188 |
| `pfrl/experiments/train_agent_async.py` | M_A3CAsync: 27-145, 133-137, 225-294, 268-284, 322-329; M_ActorProc: 28-143, 49-54,129-131; M_Async; M_Hogwild: 240-252; M_TB: 106,266-267,321-328, 106 |
| `pfrl/experiments/train_agent_batch.py` | M_A2C: 59-61; M_Train: 99-105; M_TrainEval: 150-263, 216-263, 227-228; M_VecA2C: 59-60; M_VecLoop: 10-141, 59-60 |
| `pfrl/explorers/additive_gaussian.py` | M_Explorers: 27-33 |
| `pfrl/explorers/additive_ou.py` | M_Explorers: 37-57; M_OU: 43-57, 49-50 |
| `pfrl/explorers/boltzmann.py` | M_Boltzmann: 8-27 |
| `pfrl/explorers/epsilon_greedy.py` | M_Explorers: 8-12; M_FloatSchedule: 8-12, 42-76, 71-76 |
| `pfrl/functions/bound_by_tanh.py` | M_Bounded: 4-22, 15-22; M_FloatAction: 4-21, 19-21 |
| `pfrl/functions/lower_triangular_matrix.py` | M_QuadHead: 5-28 |
| `pfrl/initializers/chainer_default.py` | M_Initializers: 10-21 |
| `pfrl/initializers/lecun_normal.py` | M_Initializers: 5-10 |
| `pfrl/nn/atari_cnn.py` | M_Nets: 23-47, 56-79 |
| `pfrl/nn/bound_by_tanh.py` | M_Bounded: 5-14 |
| `pfrl/nn/branched.py` | M_Nets |
| `pfrl/nn/concat_obs_and_action.py` | M_Nets |
| `pfrl/nn/empirical_normalization.py` | M_EmpNorm: 6-111; M_FloatNorm: 33-41, 54-59,107-109, 61-84 |
| `pfrl/nn/lmbda.py` | M_Bounded |
| `pfrl/nn/mlp.py` | M_Nets: 13-29, 31-36 |
| `pfrl/nn/mlp_bn.py` | M_Nets: 9-18, 37-69, 71-81 |
| `pfrl/nn/noisy_chain.py` | M_Modules: 11-33 |
| `pfrl/nn/noisy_linear.py` | M_Modules: 34-51; M_NoisyLinear: 7-70 |
| `pfrl/nn/recurrent_branched.py` | M_Recurrent: 19-26 |
| `pfrl/nn/recurrent_sequential.py` | M_Recurrent: 26-53 |
| `pfrl/optimizers/rmsprop_eps_inside_sqrt.py` | M_Hogwild: 9-62, 18-62, 44-62, 54-62; M_RMSprop |
| `pfrl/policies/deterministic_policy.py` | M_Bounded: 7-11, 10-11; M_Mode: 7-11 |
| `pfrl/policies/gaussian_policy.py` | M_Mode: 44-57 |
| `pfrl/policies/softmax_policy.py` | M_Mode: 5-7 |
| `pfrl/q_functions/dueling_dqn.py` | M_Dueling: 54-63; M_Nets |
| `pfrl/q_functions/state_action_q_functions.py` | M_Nets: 42-65 |
| `pfrl/q_functions/state_q_functions.py` | M_Nets: 55-72; M_QuadHead: 18-23,198-219, 18-23 |
| `pfrl/replay_buffer.py` | M_Batch: 157-212, 185, 308-327, 329-356; M_Episodic: 149-154; M_PrioUpdate: 44-52, 329-357; M_Recurrent: 215-287 |
| `pfrl/replay_buffers/episodic.py` | M_Episodic: 13-17, 19-42, 48-54, 51-52, 63-71, 72-85, 87-98, 91-92, 94-97, 96-97 |
| `pfrl/replay_buffers/persistent.py` | M_Episodic: 109-130, 119-130 |
| `pfrl/replay_buffers/prioritized.py` | M_ActorLearner: 67-122, 67, 85-112, 113-119; M_FloatSchedule: 28-40,65, 35-38, 65; M_PrioUpdate: 9-126, 28-45, 47-55, 57-66, 86-115, 117-123, 121-122, 125-126; M_PriorityWeights: 9-66, 28-45, 47-55, 57-66, 117-123 |
| `pfrl/replay_buffers/prioritized_episodic.py` | M_Episodic: 25-30, 45-60, 62-77, 74-76 |
| `pfrl/replay_buffers/replay_buffer.py` | M_Batch: 78-80; M_DQN; M_PrioUpdate: 33-76; M_ReplayBuffer: 24-31, 28, 33-62, 56-58, 64-76 |
| `pfrl/utils/async_.py` | M_A3CAsync: 21-27; M_TB: 12-43 |
| `pfrl/utils/batch_states.py` | M_BatchStates: 7-36 |
| `pfrl/utils/clip_l2_grad_norm.py` | M_ClipGrad: 5-38 |
| `pfrl/utils/conjugate_gradient.py` | M_CG |
| `pfrl/utils/contexts.py` | M_Modules: 4-13 |
| `pfrl/utils/copy_param.py` | M_ActorCritic: 9-23, 38-42; M_CopyParam: 4-23; M_FloatCopy: 9-22, 17-18; M_Hogwild: 27-34 |
| `pfrl/utils/env_modifiers.py` | M_Watch: 4-18, 8-11, 13-15, 41-47, 50-58, 61-62; M_Wrappers: 21-38, 65-82 |
| `pfrl/utils/mode_of_distribution.py` | M_Mode: 5-19 |
| `pfrl/utils/pretrained_models.py` | M_Pretrained: 146, 160-177 |
| `pfrl/utils/random.py` | M_SampleNK: 4-28, 18-27, 20-26 |
| `pfrl/utils/recurrent.py` | M_PPOData: 159-174; M_Recurrent: 30-53, 56-79, 82-118, 121-131, 177-192, 195-216, 244-271, 274-292 |
| `pfrl/utils/reward_filter.py` | M_RewardFilter: 1-16 |
| `pfrl/wrappers/atari_wrappers.py` | M_AtariStack: 35-51, 288-325; M_Wrappers: 35-51, 64-75, 78-115, 118-146, 149-155, 188-222 |
| `pfrl/wrappers/cast_observation.py` | M_Watch: 16-22 |
| `pfrl/wrappers/continuing_time_limit.py` | M_Wrappers: 21-41 |
| `pfrl/wrappers/monitor.py` | M_Monitor: 69-113 |
| `pfrl/wrappers/normalize_action_space.py` | M_FloatAction: 17-28; M_Wrappers: 58-69 |
| `pfrl/wrappers/randomize_action.py` | M_Wrappers: 32-36 |
| `pfrl/wrappers/render.py` | M_Watch: 16-24 |
| `pfrl/wrappers/scale_reward.py` | M_Wrappers: 85-92 |
| `pfrl/wrappers/vector_frame_stack.py` | M_Wrappers |

## What is not modelled

* torch itself: forward passes, automatic differentiation, optimizers (except RMSpropEpsInsideSqrt), CUDA streams and
  device placement.  Networks are functions or oracles; gradients are explicit arguments where a property is about them.
* IEEE rounding, overflow, NaN and infinities, except where a definition introduces them (division by zero in C74, C75,
  C80, C81, C84).
* Probability: random outcomes are quantified over ("for every outcome", "every outcome is possible"); distributions
  appear as finite sums (C42, C72) and as CDF intervals (C04).
* Logging, tensorboard, rendering, videos, command-line prompts, downloads of pretrained models.
* Pickle and JSON encodings: (de)serialisation is the identity on values, except for the byte-level index files of
  persistent collections (C07, C56).
* Network architectures (MLP, Atari CNNs, initialisers): only the heads named in the table are modelled.

Files no model cites: `pfrl/env.py`, `pfrl/explorer.py`, `pfrl/explorers/greedy.py`, `pfrl/nn/recurrent.py`, `pfrl/policy.py`, `pfrl/q_function.py`, `pfrl/testing.py`, `pfrl/utils/ask_yes_no.py`, `pfrl/utils/is_return_code_zero.py`, `pfrl/utils/random_seed.py`, `pfrl/utils/stoppable_thread.py`.
