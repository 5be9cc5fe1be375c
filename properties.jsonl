{"id": "C01", "title": "Sequential verdicts are sound", "statement": "When run() takes the sequential path, a reported equivalence of 'equivalent', 'equivalent up to global phase', 'equivalent up to phase' or 'not equivalent' is always the verdict of an uninterrupted run of one of the enabled checkers; hence if every enabled checker is sound, the reported verdict is true of the two circuits, no matter when the timeout fires.", "quantifier": "every configuration, every checker behaviour, every instant at which the timeout thread fires", "why_tests_cant": "the timeout can fire between any two reads of the done flag; tests cover a handful of instants", "anchors": ["src/EquivalenceCheckingManager.cpp:checkSequential", "include/EquivalenceCheckingManager.hpp:setAndSignalDone"]}
{"id": "C02", "title": "Parallel verdicts are sound under every schedule", "statement": "When run() takes the parallel path, a definitive verdict reported by results() is the verdict of a checker that ran to completion without being cancelled; hence if the checkers are sound the verdict is true, for every interleaving of the worker threads, every order in which they finish and every timeout.", "quantifier": "every configuration, number of threads, interleaving, completion order, timeout instant", "why_tests_cant": "the number of schedules is unbounded and a test run only sees the one the OS picked", "anchors": ["src/EquivalenceCheckingManager.cpp:checkParallel", "include/EquivalenceCheckingManager.hpp:asyncRunChecker"]}
{"id": "C03", "title": "'Probably' verdicts are justified", "statement": "'probably equivalent' is reported only if at least one simulation ran to completion, and no completed simulation that the manager consumed distinguished the circuits; 'probably not equivalent' is reported only if the ZX checker ran to completion without reducing the miter to the identity.", "quantifier": "every configuration, schedule and timeout, both flows", "why_tests_cant": "needs every interleaving of simulation and ZX completions", "anchors": ["src/EquivalenceCheckingManager.cpp:checkSequential", "src/EquivalenceCheckingManager.cpp:checkParallel"]}
{"id": "C04", "title": "Simulation counters are consistent", "statement": "After run(), performed_simulations <= started_simulations <= max_sims in both flows (on a fresh manager); in the parallel flow started - performed never exceeds the number of worker slots; when only simulations are configured and the verdict is 'probably equivalent' without timeout, performed = max_sims.", "quantifier": "every configuration, schedule, timeout and checker behaviour", "why_tests_cant": "counter updates are scattered over branches of a concurrent loop", "anchors": ["src/EquivalenceCheckingManager.cpp:checkSequential", "src/EquivalenceCheckingManager.cpp:checkParallel", "include/EquivalenceCheckingManager.hpp:simulationsFinished"]}
{"id": "C05", "title": "Counterexamples belong to a refuting simulation", "statement": "A counterexample (input or outputs) is stored iff the verdict 'not equivalent' was produced by a simulation and storing it was configured, and the stored input is the stimulus on which that very simulation distinguished the circuits.", "quantifier": "every configuration, schedule, number of simulations", "why_tests_cant": "in the parallel flow another worker may be preparing a different stimulus at the same time", "anchors": ["src/EquivalenceCheckingManager.cpp:checkSequential", "src/EquivalenceCheckingManager.cpp:checkParallel", "include/checker/dd/DDSimulationChecker.hpp:getInitialVector"]}
{"id": "C06", "title": "The parallel flow terminates, with its exact exceptions", "statement": "If all started checkers finish, then the parallel flow returns from its wait loop whenever an alternating or construction checker is configured and gives a result, or only simulations, or only ZX is configured, or a timeout is configured. It does NOT return if simulations and ZX are the only checkers, no timeout is set and the ZX checker has no information (e.g. ancillaries present): then it waits forever.", "quantifier": "every schedule in which every started worker eventually pushes its id", "why_tests_cant": "absence of a hang cannot be established by running; the hang depends on completion order", "anchors": ["src/EquivalenceCheckingManager.cpp:checkParallel"]}
{"id": "C07", "title": "Worker slot indices stay in bounds, with the exact exception", "statement": "Every worker launched by the parallel flow uses a checker slot below the number of allocated slots provided that the number of enabled non-simulation checkers does not exceed the configured number of threads; if it does, (nthreads=2 with alternating, construction and ZX enabled) a slot outside the vector is accessed and, with simulations enabled, the computed number of simulations to launch wraps around.", "quantifier": "every configuration accepted by the manager", "why_tests_cant": "out-of-bounds access is undefined behaviour, a test may pass by luck", "anchors": ["src/EquivalenceCheckingManager.cpp:checkParallel", "include/EquivalenceCheckingManager.hpp:asyncRunChecker"]}
{"id": "C08", "title": "Cancellation is never missed", "statement": "Once the manager has decided (done flag set and existing checkers signalled), no checker can run to completion unaware: every checker that started running was either signalled or read the flag before running, for every interleaving of checker creation with the signalling loop (under sequentially consistent memory).", "quantifier": "every interleaving of any number of workers with the signalling thread", "why_tests_cant": "the race window between creating a checker and reading the flag is a few instructions", "anchors": ["include/EquivalenceCheckingManager.hpp:setAndSignalDone", "include/EquivalenceCheckingManager.hpp:asyncRunChecker"]}
{"id": "C09", "title": "A cancelled decision-diagram check reports nothing new", "statement": "If a DD-based checker is cancelled at any point before it starts its final comparison, run() leaves its verdict as it was before the run: 'no information' for a fresh checker. A verdict is produced only after all gates of both circuits were applied.", "quantifier": "every pair of circuits, every application scheme, every instant of cancellation", "why_tests_cant": "cancellation can hit between any two gate applications", "anchors": ["src/checker/dd/DDEquivalenceChecker.cpp:run", "src/checker/dd/DDEquivalenceChecker.cpp:execute", "src/checker/dd/DDAlternatingChecker.cpp:execute", "include/checker/EquivalenceChecker.hpp"]}
{"id": "C10", "title": "Timeout thread is always joined, with the exact exceptions", "statement": "When run() returns from the sequential or symbolic flow with a timeout configured, the timeout thread has been joined, except when a simulation returns without information (a timeout during the first simulation) or a symbolic circuit cannot be turned into a ZX-diagram: in exactly these cases a joinable thread is destroyed and the process is terminated.", "quantifier": "every configuration, checker behaviour and timeout instant", "why_tests_cant": "depends on the instant at which the timeout fires", "anchors": ["src/EquivalenceCheckingManager.cpp:checkSequential", "src/EquivalenceCheckingManager.cpp:checkSymbolic"]}
{"id": "C11", "title": "The sequential simulation loop terminates on a fresh manager", "statement": "On a fresh or reset manager the sequential simulation loop runs at most max_sims simulations. On a second run() without reset() it runs none if max_sims is unchanged (so a simulation-only check degrades to 'no information'), and never stops by count if max_sims was lowered below the number already performed.", "quantifier": "every number of simulations, every sequence of run/reset/set_max_sims calls", "why_tests_cant": "termination for all configurations", "anchors": ["src/EquivalenceCheckingManager.cpp:checkSequential", "include/EquivalenceCheckingManager.hpp:simulationsFinished", "include/EquivalenceCheckingManager.hpp:reset"]}
{"id": "C12", "title": "reset() makes a manager as good as new", "statement": "After reset(), a run of the manager behaves exactly like the first run of a freshly constructed manager with the same circuits, configuration and random number generator state: previous verdicts, counters, counterexamples, checkers and generated stimuli have no influence. Without reset the counters accumulate.", "quantifier": "every history of runs, resets and setters before the reset", "why_tests_cant": "unbounded histories", "anchors": ["include/EquivalenceCheckingManager.hpp:reset", "src/EquivalenceCheckingManager.cpp:run"]}
{"id": "C13", "title": "Trivial cases are answered without running checkers", "statement": "If no checker is enabled (simulations with max_sims = 0 do not count) the result is 'no information' and no checker is created; otherwise if both circuits are empty the result is 'equivalent'. Neither case ever yields another verdict.", "quantifier": "every configuration and circuit pair", "why_tests_cant": "configuration space", "anchors": ["src/EquivalenceCheckingManager.cpp:run", "src/Configuration.cpp:anythingToExecute"]}
{"id": "C14", "title": "A definitive alternating/construction verdict decides the sequential flow", "statement": "If no timeout fires, simulations do not refute, and the alternating (or, without it, the construction) checker is enabled, then the sequential flow reports exactly that checker's verdict, independently of the ZX checker.", "quantifier": "every configuration and checker behaviour", "why_tests_cant": "configuration x behaviour space", "anchors": ["src/EquivalenceCheckingManager.cpp:checkSequential"]}
{"id": "C15", "title": "A definitive verdict can be lost in the parallel flow", "statement": "In the parallel flow with the alternating checker enabled and correct, the final result is not determined by the checkers' verdicts: if ZX reports 'probably not equivalent' and all simulations succeed before the alternating checker finishes, the flow stops with 'no information' although another schedule reports the definitive verdict. Without such a disagreement, a non-timeout run reports the definitive verdict or 'not equivalent' or an equivalent ZX verdict.", "quantifier": "every schedule", "why_tests_cant": "schedule-dependent outcome", "anchors": ["src/EquivalenceCheckingManager.cpp:checkParallel"]}
{"id": "C16", "title": "An exact checker survives the fallback", "statement": "After construction of the manager, the alternating checker is enabled only if it can handle the prepared circuits, and if it was requested but cannot handle them the construction checker is enabled instead; so a configuration with an exact checker keeps one.", "quantifier": "every circuit pair and configuration", "why_tests_cant": "all circuit pairs", "anchors": ["src/EquivalenceCheckingManager.cpp:EquivalenceCheckingManager", "src/checker/dd/DDAlternatingChecker.cpp:canHandle"]}
{"id": "C17", "title": "Number of stimuli never exceeds the number of basis states", "statement": "After construction with computational-basis stimuli, simulations enabled and at most 63 non-ancillary qubits, max_sims <= 2^n; so on a fresh manager the uniqueness loop of the stimuli generator always has an unused state left. For 64 or more non-ancillary qubits the shift that computes 2^n is undefined behaviour, and setters called after construction bypass the bound.", "quantifier": "every qubit number and max_sims", "why_tests_cant": "boundary at 63/64 qubits; histories of setters", "anchors": ["src/EquivalenceCheckingManager.cpp:EquivalenceCheckingManager", "src/checker/dd/simulation/StateGenerator.cpp:generateRandomComputationalBasisState"]}
{"id": "C18", "title": "Symbolic circuits get ZX verdicts only", "statement": "For circuits with free parameters, run() reports only what a ZX check reported, whatever other checkers are enabled, and 'no information' if a circuit cannot be transformed or the timeout fires before the check.", "quantifier": "every configuration, timeout instant", "why_tests_cant": "configuration space x timeout instants", "anchors": ["src/EquivalenceCheckingManager.cpp:checkSymbolic"]}
{"id": "C19", "title": "Computational-basis stimuli never repeat", "statement": "Successive computational-basis stimuli for r <= 63 random qubits are pairwise distinct until all 2^r were generated, are drawn from the r lowest logical qubits, and are |0> on all remaining (ancillary) positions; the retry loop ends as soon as the random source yields an unused state, and never ends iff all states have been used. A non-zero seed fixes the stimuli of the first run of a manager; seed 0 draws from the entropy device.", "quantifier": "every random sequence, number of qubits, number of draws", "why_tests_cant": "random source; exhaustive draw counts", "anchors": ["src/checker/dd/simulation/StateGenerator.cpp"]}
{"id": "C20", "title": "Large and non-classical stimuli have the right shape", "statement": "For r >= 64 random qubits each bit of the stimulus is an independent bit of the random words; for local-quantum stimuli each random qubit gets one of the six one-qubit basis states; ancillary positions are always |0> and the stimulus always has as many positions as the circuits have qubits.", "quantifier": "every r, every random word sequence", "why_tests_cant": "index arithmetic over words for all r", "anchors": ["src/checker/dd/simulation/StateGenerator.cpp"]}
{"id": "C21", "title": "The result queue is FIFO and loses nothing", "statement": "For any number of concurrent producers and one consumer, the ids popped are exactly a prefix of the ids pushed, in order of the pushes' linearisation points; nothing is popped twice or invented, and a timed pop returns empty-handed only if the queue was empty at the deadline check.", "quantifier": "every interleaving of any number of pushes and pops", "why_tests_cant": "concurrency", "anchors": ["include/ThreadSafeQueue.hpp"]}
{"id": "C22", "title": "Untimed waiting can miss a wake-up", "statement": "Because push() does not hold the mutex the consumer waits with when it publishes the element and notifies, an untimed pop can sleep forever although an element is available; a timed pop can only be delayed until its deadline, and then does return the element.", "quantifier": "every interleaving of one consumer with producers", "why_tests_cant": "race of a few instructions", "anchors": ["include/ThreadSafeQueue.hpp:waitForData", "include/ThreadSafeQueue.hpp:push"]}
{"id": "C23", "title": "Equivalence criteria survive printing and parsing", "statement": "Parsing the printed name of a criterion gives the criterion back; parsing is total with default 'no information'. The numeric codes accepted by the parser are not the enum's numbers: exactly 2,3,4,5 are decoded differently.", "quantifier": "every criterion, every string", "why_tests_cant": "all strings", "anchors": ["include/EquivalenceCriterion.hpp"]}
{"id": "C24", "title": "Scheme and state-type names survive printing and parsing", "statement": "Parsing the printed name (or the enum's number, or a documented alias) of an application scheme or state type gives it back; unknown names give the documented default and nothing else does.", "quantifier": "every scheme, state type and string", "why_tests_cant": "all strings", "anchors": ["include/checker/dd/applicationscheme/ApplicationScheme.hpp", "include/checker/dd/simulation/StateType.hpp"]}
{"id": "C25", "title": "considered_equivalent is the right classification", "statement": "considered_equivalent() is true exactly for the four verdicts that assert (probable) equivalence and never for 'not equivalent', 'probably not equivalent' or 'no information'; in particular a run that reports a refutation is never considered equivalent.", "quantifier": "every verdict", "why_tests_cant": "small, but composed with all flows", "anchors": ["include/EquivalenceCheckingManager.hpp:consideredEquivalent"]}
{"id": "C26", "title": "Configuration predicates mean what they say", "statement": "anything_to_execute, only_single_task, only_zx, only_simulation are true exactly when the number and kind of tasks they describe are configured; the sequential flow is chosen whenever only one task is configured.", "quantifier": "every configuration", "why_tests_cant": "configuration space", "anchors": ["src/Configuration.cpp", "src/EquivalenceCheckingManager.cpp:run"]}
{"id": "C27", "title": "The JSON report reflects the configuration", "statement": "The JSON of a configuration determines every execution, optimisation and parameterised setting (with one thread when not parallel), and the settings of the simulation / functionality / application of exactly the enabled checkers.", "quantifier": "every configuration", "why_tests_cant": "configuration space", "anchors": ["src/Configuration.cpp:json"]}
{"id": "C28", "title": "Alternating check computes U1 P U2^-1, whatever the scheme", "statement": "Run to completion, the alternating checker's functionality equals U1 * P * U2^dagger (before restoring the output permutation), where U_i are the operators of the circuits with tracked permutations and P the initial ancilla projector, for every application scheme (sequential, one-to-one, proportional, gate-cost with any table, lookahead with any size oracle), i.e. the verdict does not depend on the scheme.", "quantifier": "every pair of gate lists, scheme, cost table, DD-size behaviour", "why_tests_cant": "all circuits and schemes", "anchors": ["src/checker/dd/DDAlternatingChecker.cpp", "include/checker/dd/TaskManager.hpp", "include/checker/dd/applicationscheme"]}
{"id": "C29", "title": "Construction check computes both operators, whatever the scheme", "statement": "Run to completion, the construction checker's two internal operators are the operators of the two circuits applied to the initial ancilla projector, for every non-lookahead application scheme.", "quantifier": "every pair of gate lists, scheme, cost table", "why_tests_cant": "all circuits and schemes", "anchors": ["src/checker/dd/DDEquivalenceChecker.cpp", "include/checker/dd/DDConstructionChecker.hpp"]}
{"id": "C30", "title": "Simulation computes both output states, whatever the scheme", "statement": "Run to completion, the simulation checker's two internal vectors are the outputs of the circuits on the chosen stimulus, for every non-lookahead scheme; a simulation therefore refutes only if the outputs differ.", "quantifier": "every pair of gate lists, stimulus, scheme", "why_tests_cant": "all circuits, stimuli and schemes", "anchors": ["src/checker/dd/DDSimulationChecker.cpp", "src/checker/dd/DDEquivalenceChecker.cpp"]}
{"id": "C31", "title": "Every application scheme makes progress", "statement": "In an uncancelled check every gate of both circuits is applied exactly once and in order, and the main loop ends after at most |G1|+|G2| iterations for every application scheme, including cost tables with zero or huge entries.", "quantifier": "every pair of gate lists, scheme, cost table", "why_tests_cant": "termination for all inputs", "anchors": ["src/checker/dd/DDEquivalenceChecker.cpp:execute", "src/checker/dd/DDAlternatingChecker.cpp:execute", "include/checker/dd/TaskManager.hpp"]}
{"id": "C32", "title": "The alternating criterion characterises equivalence", "statement": "With unitary gates, U1 P U2^dagger is (c times) the projector P iff U1 P = c U2 P, provided one of the circuits leaves the common ancillaries alone (the can_handle condition); without ancillaries iff U1 = c U2. Hence the alternating and the construction checker agree.", "quantifier": "all operators over any number of qubits", "why_tests_cant": "all matrices", "anchors": ["src/checker/dd/DDAlternatingChecker.cpp:initialize", "src/checker/dd/DDAlternatingChecker.cpp:canHandle"]}
{"id": "C33", "title": "Skipping identical gates is sound only for equal tracked permutations", "statement": "Whenever the functionality is the identity and both next gates are identical, skipping both leaves the result of the alternating check unchanged if the tracked permutations agree on the gate's qubits; if they differ (possible when permutations are not elided), the skip can turn a non-equivalence into 'equivalent'.", "quantifier": "every pair of circuits, initial layouts and SWAPs", "why_tests_cant": "needs specific combination of layout and gates", "anchors": ["src/checker/dd/DDAlternatingChecker.cpp:execute", "src/checker/dd/DDAlternatingChecker.cpp:gatesAreIdentical"]}
{"id": "C34", "title": "Tracking SWAPs as permutations does not change the check", "statement": "Handling uncontrolled SWAP gates by updating the tracked permutation and correcting it at the end gives the same operator as applying the SWAP gates.", "quantifier": "every circuit, every placement of SWAPs, every initial layout", "why_tests_cant": "all circuits", "anchors": ["include/checker/dd/TaskManager.hpp:applySwapOperations", "include/checker/dd/TaskManager.hpp:changePermutation"]}
{"id": "C35", "title": "Simulation verdict thresholds mean closeness of states", "statement": "For unit vectors, a simulation verdict 'equivalent' implies squared distance < 2*threshold; 'equivalent up to phase' implies fidelity within threshold of 1; and states that are equal up to a phase are never reported as 'not equivalent' for any positive threshold.", "quantifier": "all complex unit vectors, all thresholds", "why_tests_cant": "continuum of inputs", "anchors": ["src/checker/dd/DDEquivalenceChecker.cpp:equals"]}
{"id": "C36", "title": "Gate-cost profiles round-trip", "statement": "Reading a profile file yields for every (gate, controls) the cost on its first well-formed line, whatever blanks or tabs separate its fields; comment and blank lines are ignored; a profile written by the Python generator is read back by the C++ parser as the same table; gates not in the table cost 1.", "quantifier": "every profile table / file", "why_tests_cant": "all files", "anchors": ["include/checker/dd/applicationscheme/GateCostApplicationScheme.hpp:populateLookupTable", "src/mqt/qcec/compilation_flow_profiles.py:write_profile_data_to_file"]}
{"id": "C37", "title": "The built-in cost function is positive and monotone", "statement": "The built-in gate cost is at least 1 for every gate and number of controls below the overflow bound, matches its closed form, and is monotone in the number of controls; the recursion terminates for every key.", "quantifier": "every gate type and number of controls", "why_tests_cant": "unbounded number of controls; unsigned wrap-around", "anchors": ["src/checker/dd/applicationscheme/GateCostApplicationScheme.cpp:legacyCostFunction"]}
{"id": "C38", "title": "The proportional scheme keeps the circuits in step", "statement": "The proportional scheme's step ratio is max/min rounded to the nearest integer (at least 1) and is applied to the longer remaining circuit: the ratio times the shorter length differs from the longer length by at most half the shorter length.", "quantifier": "every pair of remaining lengths", "why_tests_cant": "all lengths", "anchors": ["include/checker/dd/applicationscheme/ProportionalApplicationScheme.hpp"]}
{"id": "C39", "title": "Idle-qubit stripping preserves the circuits", "statement": "Stripping removes only qubits that are idle and whose output (if any) is the identity, never touches an operation, keeps both layouts bijections onto the remaining logical qubits, and keeps the relative order of the remaining logical qubits consistent in both circuits.", "quantifier": "every pair of circuits with bijective layouts and partial output permutations", "why_tests_cant": "all circuits", "anchors": ["src/EquivalenceCheckingManager.cpp:stripIdleQubits"]}
{"id": "C40", "title": "After setup both circuits have the same qubits", "statement": "After the ancilla/garbage setup both circuits have the same number of logical qubits; the extra logical qubits of the larger circuit are ancillary in both and garbage in the smaller; the larger circuit keeps its layout and the outputs of its non-garbage qubits; the operations are untouched.", "quantifier": "every pair of circuits with well-formed layouts", "why_tests_cant": "all circuits", "anchors": ["src/EquivalenceCheckingManager.cpp:setupAncillariesAndGarbage"]}
{"id": "C41", "title": "can_handle is exact", "statement": "The alternating checker refuses a circuit pair iff there is a logical qubit that is ancillary in both circuits and acted upon (or absent) in both.", "quantifier": "every pair of circuits of equal size", "why_tests_cant": "all circuits", "anchors": ["src/checker/dd/DDAlternatingChecker.cpp:canHandle"]}
{"id": "C42", "title": "Optimisations run in the documented order, exactly when configured", "statement": "For every configuration, the optimisation passes are applied to both circuits in a fixed order, each iff configured, final measurements are always removed last, dynamic circuits are rejected with an exception iff their transformation is disabled, and parametrised circuits are never optimised; a later request for an optimisation applies it at most once.", "quantifier": "every configuration and circuit pair", "why_tests_cant": "configuration space", "anchors": ["src/EquivalenceCheckingManager.cpp:runOptimizationPasses", "src/EquivalenceCheckingManager.cpp:fuseSingleQubitGates"]}
{"id": "C43", "title": "Permutation helpers of the ZX checker are correct", "statement": "invert is an involution on injective permutations; concat composes; complete extends any injective partial permutation into range to a bijection on [0,n) without changing given entries; the combined permutation is total on [0,n) whenever the initial layout is defined on exactly [0,n), and can be partial (leading to an exception in a noexcept constructor, i.e. process termination) when physical indices have gaps.", "quantifier": "every partial permutation and n", "why_tests_cant": "all permutations", "anchors": ["src/checker/zx/ZXChecker.cpp:complete", "src/checker/zx/ZXChecker.cpp:invertPermutations"]}
{"id": "C44", "title": "ZX verdicts follow from the reduced miter", "statement": "The ZX checker never reports 'not equivalent'; it reports an equivalence only if the reduced miter consists of plain wires connecting corresponding logical qubits (garbage qubits excepted); with ancillaries or after cancellation a failed reduction yields 'no information', otherwise 'probably not equivalent'.", "quantifier": "every reduced diagram, permutations, cancellation instant", "why_tests_cant": "all diagrams", "anchors": ["src/checker/zx/ZXChecker.cpp:run"]}
{"id": "C45", "title": "Parameterised checks report justified verdicts", "statement": "For parameterised circuits, check_parameterized reports an equivalence verdict only if ZX proved it or if every instantiation check performed did not refute and the last (random) one reported it; 'not equivalent' only if some instantiation check reported it; the number of instantiations is at most additional_instantiations + 2 and is reported. With a timeout the answer is that of the last (random) instantiation exactly if the ZX check, all instantiations (the last one counted twice) and the additional rounds' checks fit into the timeout, so the total time may exceed the timeout, and 'no information' may come although everything fits.", "quantifier": "every sequence of check results, timings and configuration", "why_tests_cant": "nondeterministic instantiation results and timings", "anchors": ["src/mqt/qcec/parameterized.py:check_parameterized"]}
{"id": "C46", "title": "Parameter extraction builds the right linear system", "statement": "For circuits whose gate parameters are affine in the circuit parameters, a parameter assignment solves the extracted linear system iff it makes every symbolic gate parameter zero (and with phases added iff it gives every gate parameter its chosen phase).", "quantifier": "every list of affine expressions", "why_tests_cant": "all expressions", "anchors": ["src/mqt/qcec/parameterized.py:extract_params"]}
{"id": "C47", "title": "Keyword arguments override exactly the named settings", "statement": "Applying keyword arguments sets exactly the named options to the last given value, leaves all others unchanged, dispatches each option name to a unique section, and rejects unknown names (after having applied the earlier ones).", "quantifier": "every list of keyword arguments and configuration", "why_tests_cant": "combinations of options", "anchors": ["src/mqt/qcec/configuration.py:augment_config_from_kwargs"]}
{"id": "C48", "title": "verify_compilation forces the gate-cost profile", "statement": "verify_compilation always runs with the gate-cost scheme for all three DD checkers and the profile named after the optimisation level and ancilla mode, whatever the caller's configuration or keyword arguments say; different (level, mode) pairs never share a profile name.", "quantifier": "every configuration, keyword list, level and mode", "why_tests_cant": "combinations", "anchors": ["src/mqt/qcec/verify_compilation_flow.py", "src/mqt/qcec/compilation_flow_profiles.py:generate_profile_name"]}
{"id": "C49", "title": "Profile extrapolation never overwrites measured data", "statement": "Extending a gate-cost profile (special cases, continuation by recurrence) never changes costs measured for at most max_controls controls, only adds entries below the cut-off for consecutive control numbers, and never adds more than max_qubits - max_controls - 1 of them per gate.", "quantifier": "every profile, recurrence and cut-off", "why_tests_cant": "all data", "anchors": ["src/mqt/qcec/compilation_flow_profiles.py:add_special_case_data", "src/mqt/qcec/compilation_flow_profiles.py:find_continuation"]}
{"id": "C50", "title": "End-to-end: a definitive verdict of run() is true of the circuits", "statement": "For parameter-free circuits with unitary gates, whatever the configuration, schedule and timeout, a reported (non-)equivalence by the decision-diagram checkers is true of the circuits' operators with respect to initial layout and output permutation (exact arithmetic, equal tracked permutations at skipped gates).", "quantifier": "all circuits, configurations, schedules, timeouts", "why_tests_cant": "product of all the above", "anchors": ["src/EquivalenceCheckingManager.cpp:run", "src/checker/dd"]}
{"id": "C51", "title": "The 'only ZX is configured' assertion of the sequential flow fails exactly in one situation", "statement": "On a fresh manager without timeout and with checkers that can be constructed, a debug build of run() aborts in the sequential flow exactly if simulations are enabled with max_sims = 0, ZX is enabled, no exact checker is enabled, and the ZX check of circuits with ancillaries is inconclusive.", "quantifier": "every configuration, stimuli generator and checker verdict", "why_tests_cant": "needs all combinations of configuration and checker outcome", "anchors": ["src/EquivalenceCheckingManager.cpp:checkSequential"]}
{"id": "C52", "title": "Simulations can be starved by the other checkers", "statement": "In the parallel flow, if the number of threads equals the number of enabled non-simulation checkers that are launched, not a single simulation is ever started, whatever max_sims is.", "quantifier": "every such configuration, every schedule", "why_tests_cant": "starvation must hold for every schedule; a test that sees no simulation cannot tell it from bad luck", "anchors": ["src/EquivalenceCheckingManager.cpp:checkParallel"]}
{"id": "C53", "title": "Missing checkers in the parallel flow", "statement": "In the parallel flow run() dereferences a missing checker only if some launched checker could not be constructed; if no checker throws, a finished run has returned normally. If a constructor throws, the exception reaches the caller or a null checker is dereferenced, depending on the schedule.", "quantifier": "every configuration and schedule", "why_tests_cant": "depends on which worker finishes first", "anchors": ["src/EquivalenceCheckingManager.cpp:checkParallel", "src/EquivalenceCheckingManager.cpp:run", "include/EquivalenceCheckingManager.hpp:asyncRunChecker"]}
{"id": "C54", "title": "An exception does not cancel the other checkers", "statement": "When a worker's exception is being propagated by the parallel flow, the other checkers have not been told to stop, so the caller waits until all of them have run to completion.", "quantifier": "every configuration and schedule", "why_tests_cant": "depends on the schedule and on how long the other checkers run", "anchors": ["src/EquivalenceCheckingManager.cpp:checkParallel"]}
{"id": "C55", "title": "An equivalence reported by the ZX checker is true of the circuits", "statement": "For unitary circuits without ancillaries and garbage and with complete layouts and output permutations: if the rewriting of the miter diagram preserves its meaning up to a positive factor, then 'equivalent' means the operators (with respect to layout and output permutation) are equal and 'equivalent up to global phase' that they differ by a factor of modulus one. With garbage qubits the operators differ at most on the outputs of wires whose index is garbage in both circuits (which are not always the garbage outputs); with ancillaries that are not returned to zero the verdict can be wrong.", "quantifier": "all circuits, layouts, output permutations, garbage flags, reduced diagrams", "why_tests_cant": "all circuits and diagrams of any size", "anchors": ["src/checker/zx/ZXChecker.cpp:run", "src/checker/zx/ZXChecker.cpp:ZXEquivalenceChecker", "src/checker/zx/ZXChecker.cpp:invertPermutations"]}
{"id": "C56", "title": "The ZX simplification strategy applies only checked rules, exhaustively unless cancelled", "statement": "Whatever the cancellation instant, the simplification only applies rewrite rules whose applicability check succeeded (and the three global passes); if never cancelled, no rule of any family applies to the result before disconnected spiders are removed; any simplification procedure started after cancellation returns at once without touching the diagram; the strategy terminates if rewriting does.", "quantifier": "every diagram, rule set, cancellation instant", "why_tests_cant": "all diagrams and all points at which the flag may be set", "anchors": ["src/checker/zx/ZXChecker.cpp:fullReduceApproximate", "src/checker/zx/ZXChecker.cpp:fullReduce", "src/checker/zx/ZXChecker.cpp:interiorCliffordSimp", "include/checker/zx/ZXChecker.hpp:simplifyVertices"]}
{"id": "C57", "title": "Setters change exactly what they name", "statement": "Every setter of the manager gives the settings it names the given value (setting the number of simulations to 0 also switches the simulation checker off) and leaves all others unchanged, so that after any history of calls each setting has the last value given to it; the scheme object a checker then builds is determined by its scheme, the profile (if one is named) and the cost function.", "quantifier": "every setting, every setter argument, every sequence of setter calls", "why_tests_cant": "unit tests try a few setters on one configuration; the interaction of arbitrary sequences is unbounded", "anchors": ["include/EquivalenceCheckingManager.hpp:setMaxSims,setGateCostProfile,setGateCostFunction,disableAllCheckers", "src/checker/dd/DDEquivalenceChecker.cpp:initializeApplicationScheme"]}
{"id": "C58", "title": "The exact result of an uninterrupted sequential run", "statement": "With simulation results available and no timeout or exception, a sequential run reports 'not equivalent' with the number and the stimulus of the first distinguishing simulation if there is one among the configured number of stimuli; otherwise it performs all of them and reports the verdict of the first enabled checker in the order alternating, construction, ZX, where an inconclusive ZX result keeps the simulations' 'probably equivalent' (circuits with ancillae) or, contradicting it, turns it into 'no information', and is 'probably not equivalent' if no simulation ran.", "quantifier": "every configuration, every stream of stimuli, every combination of checker results", "why_tests_cant": "ranges over all configurations, stimuli streams and checker results", "anchors": ["src/EquivalenceCheckingManager.cpp:checkSequential"]}
{"id": "C59", "title": "What partial equivalence checking decides", "statement": "With partial equivalence checking switched on, 'not equivalent' should be reported if and only if the circuits are not partially equivalent, i.e. if some input (ancillaries at zero) yields different probabilities for the outcomes of the non-garbage qubits. Exactly: an alternating check that succeeds implies partial equivalence and decides it exactly whenever the difference of the circuits acts on the ancillaries and garbage alone; the construction check decides equality of the outcome probabilities for basis-state inputs only, so it never rejects partially equivalent circuits but accepts some that are not.", "quantifier": "all circuits, numbers of qubits, ancillaries and garbage qubits", "why_tests_cant": "all circuits of any size; tests compare a few generated benchmark circuits", "anchors": ["src/checker/dd/DDAlternatingChecker.cpp:checkEquivalence", "src/checker/dd/DDEquivalenceChecker.cpp:postprocessTask", "include/checker/dd/TaskManager.hpp:reduceGarbage", "docs/source/PartialEquivalence.ipynb"]}
{"id": "C60", "title": "Which configurations a sequential run refuses", "statement": "An uninterrupted sequential run fails with an exception exactly if it reaches a checker that refuses the configuration: the simulation or construction checker with the lookahead scheme, any decision-diagram checker using the gate-cost scheme with a profile that cannot be read, or the alternating checker on circuits it cannot handle. An earlier verdict hides the refusal of a later checker. With a timeout configured the process is terminated instead of the exception reaching the caller.", "quantifier": "every configuration, every stream of stimuli, every combination of checker results", "why_tests_cant": "ranges over all configurations and which checker decides first", "anchors": ["src/EquivalenceCheckingManager.cpp:checkSequential", "include/checker/dd/DDConstructionChecker.hpp:DDConstructionChecker", "src/checker/dd/DDSimulationChecker.cpp:DDSimulationChecker", "src/checker/dd/DDEquivalenceChecker.cpp:initializeApplicationScheme"]}
{"id": "C61", "title": "The JSON report is faithful", "statement": "Whatever sequence of runs, resets and configuration changes a manager has gone through, a reader of the JSON report recovers the verdict, the numbers of started and performed simulations, the counterexample vectors, the circuits' data and each checker's name and verdict; the sections on simulations and counterexamples are present exactly when there is something to show; the configuration shown is the one at the beginning of the last run. A sequential run on a new or reset manager lists each constructed checker once, and a definitive verdict is the verdict of one of the entries; without a reset, earlier checkers are listed again.", "quantifier": "every history of a manager, every results object, every counterexample", "why_tests_cant": "all histories and vectors; unit tests look at a few keys of one report", "anchors": ["src/EquivalenceCheckingManager.cpp:json", "include/EquivalenceCheckingManager.hpp:Results", "src/EquivalenceCheckingManager.cpp:run", "src/checker/EquivalenceChecker.cpp:json", "src/checker/dd/DDEquivalenceChecker.cpp:json"]}
{"id": "C62", "title": "The numerical tolerance belongs to the process, not to the manager", "statement": "With one manager at a time, a run uses the numerical tolerance of its configuration. In general it uses the tolerance given last to any manager of the process: constructing or setting another manager changes it while the report keeps showing the configured value, and default configurations inherit it.", "quantifier": "every sequence of constructions, setter calls and runs of any number of managers", "why_tests_cant": "all interleavings of operations on several managers", "anchors": ["include/EquivalenceCheckingManager.hpp:setTolerance", "src/EquivalenceCheckingManager.cpp:EquivalenceCheckingManager", "include/Configuration.hpp:numericalTolerance"]}
{"id": "C63", "title": "An uninterrupted sequential run decides equivalence", "statement": "If the alternating or the construction checker is configured and neither timeout nor exception interferes, a sequential run answers 'equivalent' exactly if the circuits have the same functionality (for ancillaries in state zero), 'equivalent up to global phase' exactly if they differ by a phase other than 1, and 'not equivalent' exactly otherwise, whatever other checkers, schemes, stimuli and numbers of simulations are configured.", "quantifier": "every pair of circuits, every configuration with an exact checker, every stream of stimuli", "why_tests_cant": "all circuits of any size and all configurations", "anchors": ["src/EquivalenceCheckingManager.cpp:checkSequential", "src/checker/dd/DDEquivalenceChecker.cpp:run", "src/checker/dd/DDAlternatingChecker.cpp:checkEquivalence", "src/checker/dd/DDSimulationChecker.cpp:checkEquivalence"]}
{"id": "C64", "title": "Stripping idle qubits and adding ancillaries does not change what is compared", "statement": "The manager compares the circuits it was given: removing idle qubits and padding the smaller circuit with ancillaries leaves the functionality of both circuits unchanged on the qubits that remain (the removed ones are untouched), in the same order and consistently for both circuits, and the qubits assumed to start in state zero are exactly the given common ancillaries plus the qubits that only one circuit has. So the prepared circuits agree iff the given ones do, an uninterrupted sequential run with an exact checker decides the equivalence of the circuits as given, and if no qubit is left both circuits do nothing.", "quantifier": "every pair of circuits with any numbers of qubits, layouts, output permutations and operations", "why_tests_cant": "all circuits, layouts and output permutations", "anchors": ["src/EquivalenceCheckingManager.cpp:stripIdleQubits", "src/EquivalenceCheckingManager.cpp:setupAncillariesAndGarbage", "src/EquivalenceCheckingManager.cpp:EquivalenceCheckingManager", "src/EquivalenceCheckingManager.cpp:checkSequential"]}
{"id": "C65", "title": "Simulation stimuli keep the ancillary qubits in state zero", "statement": "Every stimulus of the simulation checker is |0> on all qubits from the number of primary qubits of the first circuit on, so the common ancillaries are zero in all stimuli exactly if none of them is among that many first qubits. This holds if the ancillaries of the first circuit come last, and then an uninterrupted sequential run with the generator's stimuli decides the equivalence of the circuits as given; otherwise a run can answer 'not equivalent' for circuits that agree.", "quantifier": "every pair of circuits, stimuli type, random source, number of draws", "why_tests_cant": "all circuits, layouts of ancillaries and random streams", "anchors": ["src/checker/dd/DDSimulationChecker.cpp:setRandomInitialState", "src/checker/dd/simulation/StateGenerator.cpp:generateRandomState", "src/EquivalenceCheckingManager.cpp:EquivalenceCheckingManager"]}
{"id": "C66", "title": "Which exact checker is configured does not matter", "statement": "For circuits with the same ancillaries, two undisturbed sequential runs that have the alternating or the construction checker configured give the same answer, whatever else differs between them (configuration, schemes, thresholds, stimuli, decision-diagram package). With different ancillaries this fails: the construction checker's equivalence is about inputs that are zero on the ancillaries of either circuit, the alternating checker's about the common ones, and there are circuits for which the two configurations answer the opposite.", "quantifier": "every pair of circuits, pair of configurations, stimuli, package", "why_tests_cant": "all circuits and all pairs of configurations", "anchors": ["src/EquivalenceCheckingManager.cpp:checkSequential", "include/checker/dd/DDConstructionChecker.hpp:initializeTask", "src/checker/dd/DDAlternatingChecker.cpp:initialize", "src/checker/dd/DDEquivalenceChecker.cpp:equals"]}
{"id": "C67", "title": "An uninterrupted parallel run decides equivalence, whatever the schedule", "statement": "If the alternating or the construction checker is configured, every checker has a thread and neither timeout nor exception interferes, then under every interleaving of the threads that runs to its end run() returns and answers 'equivalent' exactly if the circuits have the same functionality (for ancillaries in state zero), 'equivalent up to global phase' exactly if they differ by a phase other than 1, and 'not equivalent' exactly otherwise. With the ZX checker this needs that it does not answer 'probably not equivalent': otherwise there are equivalent circuits and schedules for which the run ends with 'no information'.", "quantifier": "every pair of circuits, every configuration with an exact checker, every stream of stimuli, every schedule of the threads", "why_tests_cant": "all circuits and all interleavings of the threads", "anchors": ["src/EquivalenceCheckingManager.cpp:checkParallel", "include/EquivalenceCheckingManager.hpp:asyncRunChecker", "src/checker/dd/DDEquivalenceChecker.cpp:run", "src/checker/dd/DDSimulationChecker.cpp:checkEquivalence", "src/checker/zx/ZXChecker.cpp:run"]}
{"id": "C68", "title": "Construct and run: the answer is about the circuits the user passed in", "statement": "Take two circuits of unitary gates whose own ancillaries agree, come last and are read out in place. If the circuit passes keep the meaning of circuits, then constructing a manager (passes, removal of idle qubits, completion of ancillaries and garbage, fallback from the alternating to the construction checker, limit on the number of simulations) and running it with an exact checker configured, sequentially or in parallel under every schedule, without timeout, answers 'equivalent' exactly if the given circuits have the same functionality on inputs that are zero on the common ancillaries and on the qubits only one of them has, 'equivalent up to global phase' exactly if they differ by a phase there, and 'not equivalent' otherwise. Of every run - with any checkers, timeouts or not - a definitive verdict is true of the given circuits. The alternating checker left configured is never refused, the limited number of stimuli can always be generated, and circuits without ancillaries keep the configured checkers.", "quantifier": "every pair of circuits with any numbers of qubits, layouts and output permutations, every configuration with an exact checker, random source and schedule", "why_tests_cant": "all circuits, configurations, random streams and schedules", "anchors": ["src/EquivalenceCheckingManager.cpp:EquivalenceCheckingManager", "src/EquivalenceCheckingManager.cpp:run", "src/EquivalenceCheckingManager.cpp:checkSequential", "src/EquivalenceCheckingManager.cpp:checkParallel", "src/EquivalenceCheckingManager.cpp:stripIdleQubits", "src/EquivalenceCheckingManager.cpp:setupAncillariesAndGarbage", "src/checker/dd/DDAlternatingChecker.cpp:canHandle"]}
{"id": "C69", "title": "Runs that check for partial equivalence", "statement": "With checkPartialEquivalence and the alternating checker, an undisturbed run (sequential, or parallel under every schedule without the construction checker) answers with an equivalence exactly if, for every input that is zero on the common ancillaries, measuring all qubits but the common garbage gives the same outcome probabilities, and 'not equivalent' exactly if not, provided one circuit leaves the common ancillaries alone and simulations only run on circuits with the same garbage. With the construction checker alone and the same ancillaries and garbage, partially equivalent circuits are never rejected and 'equivalent' means equal outcome probabilities for all computational basis states. With both checkers in parallel the answer can depend on the schedule, and with garbage in only one circuit the construction checker alone rejects equal circuits.", "quantifier": "every pair of circuits, ancillaries, garbage, configuration, stimuli, schedule", "why_tests_cant": "all circuits and all interleavings", "anchors": ["src/EquivalenceCheckingManager.cpp:checkSequential", "src/EquivalenceCheckingManager.cpp:checkParallel", "src/checker/dd/DDAlternatingChecker.cpp:checkEquivalence", "src/checker/dd/DDEquivalenceChecker.cpp:postprocessTask", "include/checker/dd/TaskManager.hpp:reduceGarbage"]}
{"id": "C70", "title": "What the answer for parameterised circuits says", "statement": "For circuits with symbolic parameters: if the answer is 'not equivalent', one of the instantiated pairs of circuits that were checked differs, and - unless rounding small values to zero changes a gate - there are values of the parameters at which the circuits as given differ. If the symbolic check answers with an equivalence, the circuits as given agree for all values of the parameters up to a global phase (exactly, for 'equivalent'). If instantiations answer with an equivalence, the circuits agree at the randomly chosen values; for other values they need not. Rounding is harmless if the linear system for the gate parameters is solvable and neither the drawn phases nor the numbers in the circuits are below the tolerance without being zero; otherwise a 'not equivalent' can be wrong although the circuits agree for all values.", "quantifier": "every pair of parameterised circuits, all values of the parameters, pseudo-inverse, random draws, number of instantiations, timeout", "why_tests_cant": "all circuits and all (infinitely many) values of the parameters", "anchors": ["src/mqt/qcec/parameterized.py:check_parameterized", "src/mqt/qcec/parameterized.py:extract_params", "src/mqt/qcec/parameterized.py:check_instantiated", "src/mqt/qcec/parameterized.py:check_parameterized_zx", "src/EquivalenceCheckingManager.cpp:checkSymbolic", "src/checker/zx/ZXChecker.cpp:run"]}
{"id": "C71", "title": "A generated profile holds the measured costs, from the gate tables to the checkers' schemes", "statement": "For every optimisation level, ancilla mode and outcome of the transpilations, generating a profile succeeds; the circuits it measures use each of their qubits once, with the ancillaries of the mode; up to eleven controls the profile has exactly the cost of the circuit that realises the gate (for gates that are phase gates of a fixed angle the phase gate's cost where they have none of their own); beyond that only phase, X and fixed-angle gates have costs, which continue the seven largest measured ones by the first fitting recurrence or linearly, below 10^6 and below 128 controls. Reading the file gives the gate-cost scheme exactly these numbers, so for a gate of the tables it applies as many gates of the compiled circuit as were measured. A predicted cost can be negative, though, and is then read as a number above 2^63.", "quantifier": "every cost of every circuit, linear-system solver, level, mode, directory name, version, gate-name dictionary", "why_tests_cant": "all costs that transpilation may produce and all numbers of controls", "anchors": ["src/mqt/qcec/compilation_flow_profiles.py:generate_profile", "src/mqt/qcec/compilation_flow_profiles.py:create_gate_profile_data", "src/mqt/qcec/compilation_flow_profiles.py:create_multi_controlled_gate", "src/mqt/qcec/compilation_flow_profiles.py:find_continuation", "src/mqt/qcec/compilation_flow_profiles.py:write_profile_data_to_file", "include/checker/dd/applicationscheme/GateCostApplicationScheme.hpp:populateLookupTable"]}
{"id": "C72", "title": "One configuration object for several calls", "statement": "A call of verify or verify_compilation that returns has accepted all keyword arguments; its result is that of the flow for parameterised circuits iff one of the circuits is parameterised, and of a plain run otherwise, under the configuration with the keyword arguments applied. If the caller passes its own configuration object, keyword arguments (and the schemes and profile of verify_compilation) persist in it: they hold for all later calls with the object until one names the option again, and options no call names keep their value. Calls without an object are independent of all other calls.", "quantifier": "every history of calls, keyword arguments, accepted or rejected values, configuration", "why_tests_cant": "all histories of calls", "anchors": ["src/mqt/qcec/verify.py:verify", "src/mqt/qcec/verify_compilation_flow.py:verify_compilation", "src/mqt/qcec/configuration.py:augment_config_from_kwargs"]}
{"id": "C73", "title": "ZX equivalence of circuits with ancillaries", "statement": "If the ZX check reports 'equivalent' for two circuits with ancillary qubits, neither of which leaves a data qubit as garbage, and both circuits return their ancillaries to state 0 (which the checker presupposes but does not test), then the circuits compute the same operator on every input whose ancillaries are 0; if it reports 'equivalent up to global phase', they differ by a factor of modulus one. With garbage data qubits the operators on the data qubits differ at most by an operator on the outputs of the wires whose index is garbage in both circuits. The wires left open are those of the data outputs if the output permutation is increasing on the ancillaries; otherwise the constructor can fix the wrong wires or access an output that does not exist.", "quantifier": "all circuits with any number of data and ancillary qubits, any layouts and output permutations (the outputs of the ancillaries may be anywhere), all reduced diagrams and global phases, any garbage flags, with and without assertions", "why_tests_cant": "quantifies over all circuits and over every diagram the rewriting may end with", "anchors": ["src/checker/zx/ZXChecker.cpp: ZXEquivalenceChecker (constructor, makeAncilla loop), run"]}
{"id": "C74", "title": "The answers of runs form a relation between circuits", "statement": "For circuits whose qubits are all read out, runs that nothing interrupts (an exact checker configured; sequential, or parallel without the ZX checker) give an answer that depends on the circuits alone: it is the same under any two configurations, flows, application schemes, meaning-preserving optimisation passes, random stimuli and schedules, and the same if the circuits are exchanged. A circuit is answered to be equivalent to itself. Circuits answered to be equivalent get the same answer against every third circuit with the same qubits and ancillaries, and a chain of positive answers never ends in 'not equivalent'. Without the same qubits the chain can: qubits that only one circuit has count as ancillary.", "quantifier": "every pair and triple of circuits, every pair of configurations, passes, schemes, random choices, schedules", "why_tests_cant": "compares arbitrary pairs of runs on arbitrary circuits", "anchors": ["src/EquivalenceCheckingManager.cpp:EquivalenceCheckingManager", "src/EquivalenceCheckingManager.cpp:run", "src/EquivalenceCheckingManager.cpp:checkSequential", "src/EquivalenceCheckingManager.cpp:checkParallel"]}
{"id": "C75", "title": "No checker uses a diagram that was reclaimed", "statement": "The decision-diagram package reclaims diagrams that hold no reference whenever it is asked to collect garbage and finds its tables full. In every run of the construction, alternating (with any application scheme, including lookahead) and simulation checker - for all circuits, results of the package, moments at which the collector runs, and moments of cancellation - no diagram is used after it was reclaimed and no reference is released that was not taken; at the end exactly the diagrams the checker still keeps are referenced, and any number of uncancelled simulations leaves no reference. The output states stored as a counterexample are intact; its input state is not: it is read after the run although it was not referenced, so a collection during the run may have reclaimed it. The same holds for a second run with the same stimulus.", "quantifier": "every pair of circuits, scheme, sequence of stimuli, result of the package's operations, collection and cancellation points", "why_tests_cant": "use after reclamation shows only if the collector runs at the wrong moment, which depends on table sizes", "anchors": ["include/checker/dd/TaskManager.hpp:applyGate", "include/checker/dd/applicationscheme/LookaheadApplicationScheme.hpp:operator()", "src/checker/dd/DDSimulationChecker.cpp:checkEquivalence", "include/checker/dd/DDSimulationChecker.hpp:getInitialVector", "src/checker/dd/DDAlternatingChecker.cpp:execute", "include/checker/dd/DDConstructionChecker.hpp:initializeTask", "src/checker/dd/simulation/StateGenerator.cpp:generateRandomStabilizerState"]}
{"id": "C76", "title": "Documented defaults, and how to get back to them", "statement": "A configuration constructed without arguments has the documented value in every option, whatever the machine (except the number of threads, which is two where the operating system reports fewer). On machines with at least two threads, calling a setter of the manager without an argument after any history of calls gives the options it is about their default value, and calling all of them in any order restores all options but the profile (whose setters select the gate-cost scheme instead). On machines for which fewer threads are reported set_max_sims() asks for more than 4*10^9 simulations.", "quantifier": "every number of threads reported, every history of setter calls, every order of calls", "why_tests_cant": "depends on the machine and on arbitrary histories of calls", "anchors": ["include/Configuration.hpp", "src/python/bindings.cpp:PYBIND11_MODULE", "include/EquivalenceCheckingManager.hpp:setMaxSims"]}
{"id": "C77", "title": "Data races of the parallel check", "statement": "In the parallel check, until the main thread decides the outcome, no two threads access the same memory without being ordered by the start of a thread, by waiting for it, or by a mutex, unless both only read. The circuits, the configuration, the stimuli generator, the results, the queue and everything a checker owns but its cancellation flag never race, also afterwards; so the reported results do not depend on unordered accesses. Every data race is between the main thread announcing the decision and a worker that has not been waited for, on the 'done' flag, on the pointers to the checkers or on a checker's own flag; and those accesses are data races (undefined behaviour) whenever the worker comes after the decision, since nothing orders them. A future is only waited for while its thread is the last one started for that slot; no thread outlives the call, returning or throwing.", "quantifier": "every pair of circuits, configuration, number of threads, interleaving, timeout point, cancellation point", "why_tests_cant": "a race shows only under particular interleavings and hardware, and its absence is a statement about all of them", "anchors": ["src/EquivalenceCheckingManager.cpp:checkParallel", "include/EquivalenceCheckingManager.hpp:setAndSignalDone", "include/EquivalenceCheckingManager.hpp:asyncRunChecker", "include/checker/EquivalenceChecker.hpp:signalDone", "include/ThreadSafeQueue.hpp"]}
{"id": "C78", "title": "The timeout thread of the sequential and the symbolic check", "statement": "A sequential or symbolic check with a timeout runs next to a thread that waits for the decision or the deadline. Over all interleavings of the two threads, the outcomes (results, checkers, errors) are exactly those obtained by letting the timeout fire at one moment (or never) between two observations of the calling thread and letting any of the later checker runs notice it. Executions end unless the thread wakes up spuriously for ever, and never deadlock. A decision announced while the timeout thread sleeps, or before it looks at 'done', or after its deadline, is never waited on until the deadline; and every run that returns with a verdict other than 'no information' and 'probably equivalent', or after all simulations if nothing else is configured, has announced it. A decision announced between the thread's look and its falling asleep is lost, and run() then returns only when the timeout elapses. If simulations agree, no decision diagram checker is enabled and the circuits cannot be treated by the ZX checker, every run waits for the full timeout. Without a timeout there are no data races; with one every run that returns contains a data race on 'done', and the vector of checkers may grow while the timeout thread iterates over it.", "quantifier": "every configuration, behaviour of the checkers, history of earlier checkers, interleaving of the two threads, wake-up and deadline", "why_tests_cant": "interleavings, lost wake-ups and races occur only under particular schedules", "anchors": ["src/EquivalenceCheckingManager.cpp:checkSequential", "src/EquivalenceCheckingManager.cpp:checkSymbolic", "include/EquivalenceCheckingManager.hpp:setAndSignalDone"]}
{"id": "C79", "title": "The queue between workers and main thread is free of data races", "statement": "Whatever operations (push, blocking pop, pop with deadline, empty) any number of threads call on one queue, in whatever order and interleaving, with spurious wake-ups and expiring deadlines, no two of their accesses to the queue's members or to its nodes (including the construction and the destruction of nodes) form a data race in the sense of the C++ memory model, although pushing and popping use different mutexes. The queue publishes: everything a thread did before it stored an element happens before what the thread that takes the element out does with it.", "quantifier": "every number of threads, every program over the queue's operations, every interleaving", "why_tests_cant": "a missing ordering shows only under particular interleavings on particular hardware", "anchors": ["include/ThreadSafeQueue.hpp:push", "include/ThreadSafeQueue.hpp:waitAndPop", "include/ThreadSafeQueue.hpp:waitAndPopUntil", "include/ThreadSafeQueue.hpp:empty", "include/ThreadSafeQueue.hpp:getTail", "include/ThreadSafeQueue.hpp:popHead"]}
{"id": "C80", "title": "The order in which the circuits' operations are applied", "statement": "With the lookahead scheme, an uncancelled check by the alternating checker applies uncontrolled and controlled SWAPs at the front of either circuit first and then, as long as both circuits have operations left, computes the results of applying the next operation of the first circuit and of the next (inverted) operation of the second and keeps the one whose diagram is smaller, the first circuit's on a tie; when one circuit is used up the rest of the other follows. This fixes the whole computation, whatever the diagrams, their sizes and the package's operations are (provided no SWAP is inside a compound operation). With the one-to-one scheme a checker that does not skip equal gates alternates strictly between the circuits (if they have no operations of type SWAP).", "quantifier": "every pair of circuits, layouts, sizes of diagrams, results of the package's operations", "why_tests_cant": "all circuits and all sizes that intermediate diagrams may have", "anchors": ["include/checker/dd/applicationscheme/LookaheadApplicationScheme.hpp:operator()", "include/checker/dd/applicationscheme/OneToOneApplicationScheme.hpp:operator()", "src/checker/dd/DDAlternatingChecker.cpp:execute", "src/checker/dd/DDEquivalenceChecker.cpp:execute"]}
{"id": "C81", "title": "What the Python entry points accept, and how they fail", "statement": "verify() on files and circuits without free parameters returns exactly if its keyword arguments are accepted, both arguments can be imported (a str names a file, anything else must be a qiskit QuantumCircuit, and the modules qiskit and qiskit.qobj must be importable even for files), a manager can be constructed under the configuration as changed by the keyword arguments, and its run returns; it then returns that run's results. Errors have an order: keyword arguments, first circuit, second circuit, constructor and run; an import error names the circuit it is about; an unsupported object is always refused. If a circuit has free parameters, the call ends with the first failure among the steps that the flow for parameterised circuits makes, and with that flow's result if there is none. A circuit with parameters against a file, or against a circuit with other parameters, gets a result only if the symbolic check accepts; otherwise the call raises. verify_compilation() ends like verify() on the configuration with gate-cost scheme and profile filled in and warns about each QuantumCircuit without measurements.", "quantifier": "every kind of argument, configuration, keyword arguments, behaviour of importers, constructor, run, Qiskit and numpy", "why_tests_cant": "arbitrary inputs combined with failures at any step", "anchors": ["src/python/bindings.cpp:importCircuit", "src/python/bindings.cpp:createManagerFromConfiguration", "src/mqt/qcec/verify.py:verify", "src/mqt/qcec/parameterized.py:check_parameterized", "src/mqt/qcec/parameterized.py:extract_params", "src/mqt/qcec/verify_compilation_flow.py:verify_compilation"]}
{"id": "C82", "title": "Which configurations a parallel run refuses", "statement": "A parallel run starts the alternating, construction and ZX checkers that are configured (ZX only if both circuits can be converted) and simulations if at least one is configured and a thread is left. If the constructor of a checker that is started refuses its configuration (lookahead scheme outside the alternating checker, unreadable profile), run() never returns a result, whatever the interleaving. run() throws only if a started checker refuses (its constructor, or the alternating checker its circuits); each such checker can make it throw; once the exception is on its way nothing else can happen. If all started checkers refuse and no timeout is set, every completed run throws. A checker that is refused only when it runs can be overtaken, and run() then returns the other checkers' answer.", "quantifier": "every pair of circuits, configuration, number of threads, interleaving", "why_tests_cant": "whether the exception surfaces depends on the schedule", "anchors": ["src/EquivalenceCheckingManager.cpp:checkParallel", "include/EquivalenceCheckingManager.hpp:asyncRunChecker", "src/checker/dd/DDEquivalenceChecker.cpp:initializeApplicationScheme", "src/checker/dd/DDAlternatingChecker.cpp:checkEquivalence"]}
{"id": "C83", "title": "Which Python objects share state", "statement": "A Configuration, a free-standing section, a manager and a Results object each own what they contain: a statement of a user's program changes only the object it assigns to or calls a method of, in particular never the configuration a manager was made from, earlier results, or another manager. What becomes of a manager depends only on the calls of its own methods in their order. A manager is made from the values its configuration has at that time; get_configuration() and get_results() return new objects equal to the manager's state; run() records the configuration at the call. Sections and results.configuration are references into their owner: an assigned option is seen through every reference, assigning a section copies its options and keeps earlier references valid. A saved number, flag or string keeps its value whatever follows; refuted for application schemes and state types, which are references too, so that saving and later assigning them back does not restore them.", "quantifier": "every program of reads, assignments, constructions, method calls and runs, every behaviour of conversions, methods and runs", "why_tests_cant": "all sequences of statements over any number of objects", "anchors": ["src/python/bindings.cpp:registerConfiguration", "src/python/bindings.cpp:createManagerFromConfiguration", "include/EquivalenceCheckingManager.hpp:getConfiguration", "include/EquivalenceCheckingManager.hpp:getResults", "src/EquivalenceCheckingManager.cpp:run"]}
{"id": "C84", "title": "Calling run() again in the parallel flow", "statement": "A manager keeps its checkers between runs and Python offers no reset(). After a run has returned, each checker it leaves has been told to stop or holds no verdict, and a checker that was told to stop never computes again, whatever the settings become. A definitive verdict of a later run is a left-over verdict or one that a started or left-over kind of checker computes now; with unchanged circuits and settings, any number of runs give only definitive verdicts that an enabled checker computes (sound if those are). A run makes boundedly many steps. If a simulation is started where another kind of checker is left over, run() neither returns nor throws; with simulations only and no timeout, a second run after one that refuted nothing always waits forever. Refuted: the same question gets the same answer, changed settings take effect, a reported counterexample distinguishes the circuits, the number of simulations is at most max_sims.", "quantifier": "every pair of circuits, configuration, left-over checkers and results, number of runs, interleaving", "why_tests_cant": "needs all interleavings of several runs with state carried over", "anchors": ["src/EquivalenceCheckingManager.cpp:checkParallel", "include/EquivalenceCheckingManager.hpp:asyncRunChecker", "include/EquivalenceCheckingManager.hpp:reset", "include/checker/EquivalenceChecker.hpp:signalDone", "src/checker/dd/DDEquivalenceChecker.cpp:run", "src/checker/zx/ZXChecker.cpp:run"]}
{"id": "C85", "title": "The whole life of a manager", "statement": "Through any sequence of changes of the settings, reset() and runs in any flow (sequential, symbolic, parallel): a definitive verdict that a manager reports is due to empty circuits in a run since the last reset, or was computed under the settings of a run since the last reset by a kind of checker used in such a run (by simulations only a refutation, of a stimulus that the generator could draw in such a run). It is therefore true if the checkers used since the last reset tell the truth under each of these settings; nothing from before the last reset matters. The same holds for the verdict of each checker the manager holds. If all runs are about the same two circuits (unitary gates, exact arithmetic), every definitive verdict in the manager's life is true of them, however the settings (and the type of stimuli) change; so from the circuits as given to the constructor, through its passes and preparation, to any verdict of the manager. Runs that throw are part of this; a run() that throws, in whatever flow, leaves no definitive verdict (not even that of an earlier run), and a sequential one keeps the checkers it found. Refuted: that the verdict comes from a checker that is still switched on, and that the results never count more performed simulations than started ones.", "quantifier": "every sequence of setter calls, resets and runs, every pair of circuits, configuration, timeout and interleaving", "why_tests_cant": "needs all histories of calls and all interleavings within each", "anchors": ["include/EquivalenceCheckingManager.hpp:reset", "include/EquivalenceCheckingManager.hpp:run", "src/EquivalenceCheckingManager.cpp:checkSequential", "src/EquivalenceCheckingManager.cpp:checkParallel", "src/EquivalenceCheckingManager.cpp:checkSymbolic"]}
{"id": "C86", "title": "The shipped profiles", "statement": "The package holds a gate-cost profile for each ancilla mode at the optimisation levels 0 to 3, under exactly the names verify_compilation() forms, and none for any other level. Each is, character by character, what the profile generator writes for some non-negative circuit costs below 10^6 (predicted and copied costs included). The C++ side can read each one provided it knows the 23 gate names; the scheme then has a cost for exactly the gates of the tables without controls, 15 gates with one control, and X and the phase gates with up to 127 controls, and treats anything else one to one. Every cost is below 10^6 and positive, except 0 for an uncontrolled SWAP from level 2 on. A higher level makes no gate costlier (except the controlled SWAP from levels 0, 1 to 2, 3) and levels 2 and 3 agree; more controls make no gate cheaper (except X from four to five controls at level 0 with recursion); the ancilla mode matters only for X with at least three controls and more ancillaries make it no costlier (except X with three controls with the V-chain); a phase gate of a fixed angle costs what the phase gate costs (except controlled Z). The claims without the exceptions are refuted.", "quantifier": "every shipped profile, gate, number of controls, and naming of the gates on the C++ side", "why_tests_cant": "tests read a profile or two for a handful of circuits; the claims are about all files, gates, levels and modes at once and about the generator", "anchors": ["src/mqt/qcec/profiles/qiskit_O0_noancilla.profile", "src/mqt/qcec/profiles/qiskit_O3_v-chain.profile", "src/mqt/qcec/compilation_flow_profiles.py:generate_profile", "src/mqt/qcec/verify_compilation_flow.py:verify_compilation", "include/checker/dd/applicationscheme/GateCostApplicationScheme.hpp:populateLookupTable"]}
{"id": "C87", "title": "Circuits without operations", "statement": "If neither circuit has operations (whatever their numbers of qubits, layouts and output permutations) and something is to be executed, every run answers 'equivalent'; no pass is applied and no checker is created. With all qubits read out, this answer is true exactly if every input that both circuits have is read out as the same logical qubit in both; such circuits never differ by a global phase only, and if one shared input is read out as different qubits they are not equivalent, even up to global phase. Refuted: that the answer is always true (two qubits read out straight and crossed).", "quantifier": "every pair of circuits without operations, layout, output permutation, configuration, history of the manager", "why_tests_cant": "all layouts and output permutations of all sizes", "anchors": ["src/EquivalenceCheckingManager.cpp:run", "src/EquivalenceCheckingManager.cpp:runOptimizationPasses", "src/EquivalenceCheckingManager.cpp:stripIdleQubits", "src/EquivalenceCheckingManager.cpp:setupAncillariesAndGarbage"]}
{"id": "C88", "title": "Simulating every basis state", "statement": "If only simulations of computational basis states are configured and at least as many are asked for as there are basis states of the first circuit's primary qubits, an uninterrupted run, sequential or parallel in any schedule in which it returns, answers 'probably equivalent' exactly if the two circuits' results are close on every one of these states (squared distance below twice the fidelity threshold, or fidelity within the threshold of 1), and 'not equivalent' exactly if they are not on some. For circuits that map basis states to basis states and a threshold of at most 1, such a run thereby decides whether they agree on all inputs with zeros from the number of primary qubits on, and, through the constructor, whether the circuits as given agree on all inputs with their common ancillaries zero. For circuits that map basis states to multiples of basis states (with phase gates) it decides, likewise also for the circuits as given, whether they agree up to phases of the basis states. Circuits that differ by a diagonal operator are never told apart by any number of simulations of basis states. Refuted: that simulating all basis states decides equivalence (Z against the identity).", "quantifier": "every pair of unitary circuits, fidelity threshold, fair random source, timeoutless schedule, decision-diagram package with canonical nodes", "why_tests_cant": "all circuits, thresholds and random sources; the number of basis states is not bounded by what a test can run", "anchors": ["src/checker/dd/DDSimulationChecker.cpp:setRandomInitialState", "src/checker/dd/DDEquivalenceChecker.cpp:equals", "src/checker/dd/simulation/StateGenerator.cpp:generateRandomComputationalBasisState", "src/EquivalenceCheckingManager.cpp:checkSequential", "src/EquivalenceCheckingManager.cpp:checkParallel", "src/EquivalenceCheckingManager.cpp:EquivalenceCheckingManager"]}
