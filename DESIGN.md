# Formal model of MQT QCEC in Rocq (Coq 8.16.1)

Source: `/repo` (cda-tum/mqt-qcec at the pinned commit), read as text, never built. `mqt-core` (DD package,
`QuantumComputation`, ZX package, circuit optimiser) is an external dependency whose source is not available here;
whatever of it the model needs is an explicit argument of the theorems or a small documented model (listed below).

## How to read the development

* **Model files** contain definitions only, each with a comment citing the file and lines of `/repo` it models and the
  simplifications made.
* **`*Spec.v`** hold the vocabulary of the statements, written without the model's helpers.
* **`*Proofs*.v`** hold lemmas. **`Prop*.v`** hold the property theorems, each closed by `exact lemma`, followed by
  `Print Assumptions` and by `Example`s showing concrete cases that meet the hypotheses.
* Suffix `_refuted`: the claim one would expect is false of the code; the theorem exhibits the witness. Suffix
  `_partial`: only part of the property is proved (currently none).
* Undefined behaviour, `std::terminate`, uncaught exceptions, failed assertions and non-termination are distinct
  outcomes of the models, not absent.

## Layout (rocq/theories)

| model | models | vocabulary | properties |
|---|---|---|---|
| `Criterion.v`, `Config.v` | `EquivalenceCriterion.hpp`, `ApplicationScheme.hpp` (enum), `StateType.hpp`, `Configuration.hpp/.cpp` | `EnumSpec.v` | `PropEnums.v` |
| `Setters.v` | setters of `EquivalenceCheckingManager.hpp:117-249` | `SettersSpec.v` | `PropSetters.v` |
| `SeqFlow.v` | `run`, `checkSequential`, `checkSymbolic`, `reset` | `SeqSpec.v`, `VerdictSpec.v`, `RefusalSpec.v` | `PropSeq.v`, `PropVerdict.v`, `PropRefusal.v` |
| `Report.v` | `Results::json`, `json` of the checkers, what `run`/`reset` do to the reported fields | `ReportSpec.v` | `PropReport.v` |
| `Tolerance.v` | `setTolerance`, default of `numericalTolerance`, several managers in one process | in `PropTolerance.v` | `PropTolerance.v` |
| `ParFlow.v` | `checkParallel`, `asyncRunChecker`, `setAndSignalDone`: labelled transition system | `ParSpec.v`, `ParRefusalSpec.v` | `PropPar.v`, `PropParRefusal.v` |
| `Queue.v` | `ThreadSafeQueue.hpp`, one step per lock operation / memory access, condition variable with wait set | `QueueSpec.v` | `PropQueue.v` |
| `StateGen.v` | `StateGenerator.cpp`, bound on the number of simulations in the constructor | `StateGenSpec.v` | `PropStateGen.v` |
| `Schemes.v` | the application schemes, `legacyCostFunction`, reader/writer of gate-cost profiles | `SchemesSpec.v` | `PropSchemes.v` |
| `DDCheck.v` | `TaskManager.hpp`, run/execute/finish/postprocess of `DDEquivalenceChecker.cpp`, `DDAlternatingChecker.cpp`, construction and simulation checker, lookahead, over an abstract DD package | `DDSpec.v` | `PropDD.v` |
| `Qubits.v`, `DDSem.v`, `DDFlow.v` | semantics: matrices over qubits, gates, circuits; the checkers instantiated with exact arithmetic; the flow with these checkers | in the same files | `PropDDSem.v` |
| `EndToEnd.v` | the flow with all four checkers | in the same file | `PropEndToEnd.v` |
| `Choice.v` | two runs with different configurations | in the same file | `PropChoice.v` |
| `ParDecide.v` | uninterrupted parallel runs | in the same file, `ParDecideProofs*.v` | `PropParDecide.v` |
| `Construct.v` | constructor followed by a run | in the same file | `PropConstruct.v` |
| `PartialFlow.v` | runs in partial-equivalence mode | in the same file | `PropPartialFlow.v` |
| `ParamInst.v` | binding, rounding, solved values of parameterized.py | `ParamSem.v` | `PropParam.v` |
| `PrepSem.v` | what the preparation means for the operators | in the same file | `PropPrepSem.v` |
| `Stim.v`, `StimSem.v` | `setRandomInitialState`, the states the generator's stimuli stand for | `StimSpec.v` | `PropStim.v` |
| `PartialEq.v` | partial equivalence: the tests of the alternating and the construction checker with garbage, and what they should decide | in the same file | `PropPartial.v` |
| `Perm.v`, `ZX.v`, `ZXSem.v`, `ZXAnc.v`, `ZXFix.v` | permutation helpers, constructor look-ups, simplification strategy and verdict of `ZXChecker.cpp`; meaning of diagrams | `PermSpec.v`, `ZXSpec.v` | `PropZX.v`, `PropZXSem.v`, `PropZXAnc.v`, `PropZXFix.v` |
| `Relation.v` (vocabulary over `Construct.v`) | the answers of constructor and run, over all configurations and schedules | `Relation.v` | `PropRelation.v` |
| `Prep.v`, `Passes.v` | `stripIdleQubits`, `setupAncillariesAndGarbage`, `canHandle`, fallback, `runOptimizationPasses`, constructor | `PrepSpec.v`, `PassesSpec.v` | `PropPrep.v` |
| `PyParam.v` | `parameterized.py` | `PyParamSpec.v` | `PropPyParam.v` |
| `PyConfig.v` | `configuration.py`, `verify_compilation_flow.py` | in `PropPyConfig.v` | `PropPyConfig.v` |
| `PyProfile.v` (`PyProfileSolver.v`: a solver for the examples) | `compilation_flow_profiles.py:205-430` | `PyProfileSpec.v`, in `PropPyProfile.v` | `PropPyProfile.v` |
| `ProfileGen.v` | `compilation_flow_profiles.py:18-305,375-426`: the measured circuits, the table, the file, and its way into the gate cost scheme | `ProfileGenSpec.v` | `PropProfileGen.v` |
| `ProfileData.v` (generated from the files by a script) | `profiles/*.profile` (12 files of 921 lines), `verify_compilation_flow.py:92-96` | `ProfileDataSpec.v` | `PropProfileData.v` |
| `RefPackage.v`, `RefFlow.v` | reference counting: `TaskManager.hpp:68-144`, `LookaheadApplicationScheme.hpp:38-83`, the DD checkers' runs, `StateGenerator.cpp:131-158`, counterexample storage | `RefSpec.v` | `PropRefFlow.v` |
| `Trace.v`, `ParTrace.v` | the accesses to shared memory of `checkParallel`, `asyncRunChecker`, `setAndSignalDone`, and the happens-before order of the C++ memory model | `Trace.v`, `RaceSpec.v` | `PropRaces.v` |
| `SeqThreads.v` | `checkSequential`, `checkSymbolic` and the body of their timeout thread, one step per access to what they share | `SeqThreadsSpec.v`, `Trace.v` | `PropSeqThreads.v` |
| `QueueTrace.v` | the accesses to shared memory of every step of `Queue.v` | `Trace.v` | `PropQueueRaces.v` |
| `Defaults.v` | default arguments of the Python methods, `bindings.cpp:199-367` | `DefaultsSpec.v` | `PropDefaults.v` |
| (on `PyParam.v`) | durations and timeouts in `parameterized.py` | `PyParamTimeSpec.v` | `PropPyParamTime.v` |
| `PyVerify.v` | `verify.py`, `verify_compilation_flow.py`: histories of calls that share a configuration object | `PyVerifySpec.v` | `PropPyVerify.v` |
| `PyEntry.v` | `bindings.cpp` 30-71 (import, creation of managers), `verify.py`, `parameterized.py`, `verify_compilation_flow.py` with exceptions | `PyEntrySpec.v` | `PropPyEntry.v` |
| `ParAgain.v` | a further parallel run on what an earlier one left behind | `ParAgainSpec.v` | `PropParAgain.v` |
| `SeqThrow.v`, `Life*.v` | what a throwing sequential run leaves; all histories of one manager | `LifeSpec.v`, `LifeSem.v`, `LifeGivenSpec.v` | `PropLife*.v` |
| (on `SeqFlow.v`, `Passes.v`, `Prep.v`) | circuits without operations | `EmptySpec.v` | `PropEmpty.v` |
| (on `SeqFlow.v`, `ParFlow.v`, `StateGen.v`, `DDCheck.v`) | simulations of all basis states | `ExhaustSpec.v`, `ExhaustSem.v` | `PropExhaust.v` |

`*Demo*.v` hold concrete circuits, environments and schedules for the examples and witnesses.

## Per-property plan

Sequential flow (`SeqFlow.v`): a fuelled interpreter over an environment that says what an uninterrupted run of each
checker yields, what the stimuli generator returns, which constructors throw and before which observation the timeout
fires. Fuel is shown irrelevant (C11). Proofs: induction on the simulation loop, then composition of the phases.

* C01 verdict source / soundness relative to the checkers; C03, C04, C05 sequential parts; C10 exact conditions for
  `std::terminate`; C11 termination; C12 histories of run/reset; C13 trivial cases; C14 deciding checkers; C18 symbolic
  flow; C51 exact condition of the failing assertion; C58 decision table of the uninterrupted run (the complete results record);
  C60 exactly when it ends with an exception (case analysis of the phases).

Parallel flow (`ParFlow.v`): main thread and workers as a transition system, any schedule, any number of threads.
Proofs: invariants by induction over reachable states; termination by a measure; negative parts by schedules.

* C02, C03, C04, C05 (parallel parts), C06 returns / hangs exactly, C07 slot bounds, C08 cancellation, C15 lost verdict,
  C52 starvation, C53 missing checkers, C54 exceptions do not cancel.
* C77 data races: each step of `ParFlow.v` emits its memory accesses; happens-before is an inductive relation over the trace (program order,
  start, wait, mutex), computed exactly by vector clocks; invariant: who knows about which access (`ParTraceProofs*.v`).
* C78 sequential flow and timeout thread: the calling thread as a program over its shared accesses; refinement and realisation against
  `SeqFlow.v` (`SeqThreadsProofs*.v`), termination by a rank of the timeout thread, races by the absence of any ordering event;
  every settled outcome has been announced to the timeout thread (`SeqThreadsProofs5.v`, induction on the program).
* C79 races of the queue: every location is guarded at any time by a mutex or by one thread; whoever guards it knows all its accesses
  (`QueueTraceProofs*.v`, on top of the invariant of C21).
* C80 order of application (OrderSpec.v, OrderProofs.v, PropOrder.v): for arbitrary checker state, actions and sizes the state after execute
  and finish is the one the greedy (lookahead) or alternating (one-to-one) order gives; induction on the iterations of the loop.
* C21, C22: the queue itself at the granularity of lock operations; invariant over the linked list, FIFO, lost wake-up.

Checkers.

* C09 cancellation, C31 progress: for every DD package, scheme and flag history (induction on the run).
* C28, C29, C30 what the checkers compute; C32 the alternating criterion; C33 skipping identical gates; C34 tracking of
  SWAPs; C35 thresholds of the simulation verdict; C41 `canHandle`; C50 composition of the flows with the checkers:
  matrices over an arbitrary `numClosedFieldType`, gates and permutations as operators. C63 combines C58 with C32; C67 combines the schedule-independent facts of C08-C15 (`ParProofs*.v`) with C32; C66 compares two runs by C63 (same ancillaries) and bounds the construction verdict for different ones. C64: operators of the given circuits are lifts of those of the prepared ones (`LiftProofs.v`), derived from C39 and C40, then C63. C68 composes the constructor (C42, C64, C16, C17) with C65/C67: passes are hypotheses (`keeps_meaning`), the constructor's canHandle is shown to be the checker's, the ancillaries of the prepared circuits to be handled or equal. C74 compares arbitrary pairs of runs: each is tied to the operators by C68, which are unique if everything is read out. C69 carries C59 through the flows (`PartialFlow*.v`): the checkers' verdicts in partial mode, then C58/C15/C02 as for C63 and C67. C70 composes C45/C46 (flow and linear system of parameterized.py), C68_definitive_verdicts_true for the instantiated checks and C55 for the symbolic one; `ParamInst.v` models binding and rounding, `prepare` is shown to commute with binding. C59 partial equivalence: the two tests
  as equations between blocks of the operators; probabilities of outcomes for every input state.
* C43 permutation helpers, C44 verdict, C56 simplification strategy, C55 meaning of a ZX verdict for the circuits under the
  hypothesis that mqt-core's rewriting preserves the diagram's meaning up to a positive factor; C73 the same with ancillaries: the
  post-selected operators are unitary if the ancillaries are returned, and the wires of the diagram are permuted data qubits.
* C36 profile files round trip, C37 cost function, C38 proportional scheme.

Preparation. C16 an exact checker survives; C17 number of stimuli; C19, C20 stimuli generator over an arbitrary random
stream (`uniform_int_distribution`: result within bounds; termination under the hypothesis that the stream is fair);
C65 the stimuli against the ancillaries (product states; the qubit count of the first circuit's primary qubits is the bound);
C39 stripping; C40 setup of ancillaries and garbage; C42 order of the optimisation passes, which themselves are
arbitrary functions on circuits.

Interface. C23-C27 names, classification, predicates, JSON report of the configuration; C57 setters; C61 the report (a reader of
JSON documents independent of the writer; invariants over histories); C62 the process-wide tolerance; C45-C49 the Python
layer (values as a small inductive type, floats as rationals, pybind conversions abstract); C71 the profile generator up to the
scheme that reads its file (the transpiler is an arbitrary cost function; composition with C36 and C49); C86 the shipped profiles: the
files as strings, shown by kernel computation to be what the modelled generator (with an exact solver) writes for the costs they hold, then read
back with the theorem of C71, so that the scheme's table is known for every naming of the gates; comparisons by computation over all entries; C72 histories of
`verify` / `verify_compilation` calls (one heap cell for the shared configuration; induction over the history).

Resources. C75 reference counting: the checkers' control flow in a small state monad over reference counts and a set of live diagrams,
every answer of the package and the schedule an oracle; Hoare triples with the invariant "counts are exactly the diagrams held"
(`RefPackage.v`, `RefFlow.v`, `RefSpec.v`, `RefFlowProofs.v`, `PropRefFlow.v`). The result says that the counterexample *input* read by the
manager may have been reclaimed; the theorems about the stored counterexample (C05) speak about its value had it not been.
C85 the whole life of a manager (`Life*.v`): inductive set of histories (constructor, setters, reset(), a run in any flow, returning or throwing,
each with its own circuits' settings) over the models of `SeqFlow.v` and `ParAgain.v`; `SeqThrow.v` models what a sequential run that throws leaves
behind (shown to cover exactly the runs that throw); invariant by induction over the history. `LifeSem*.v` combine it with the truth of the checkers
(C50): all runs about the same circuits; stimuli range over those the generator can draw in one of the runs (`drawable_in`). `LifeGiven*.v` instantiate
this for the circuits as given (preparation, C64; constructor, C68; stimuli of the state generator, C65).
C87 circuits without operations (`Empty*.v`): the operator of such a circuit is a permutation of the qubits (layout and output permutation, as in C28),
and is compared for the two circuits; the run is that of `SeqFlow.v` on the manager that the constructor of `Passes.v` makes (C68).
C88 simulating every basis state (`Exhaust*.v`): no new code is modelled. A generator with a fair source hands out every basis state once (C19), so the
run's verdict (C58; C02-C04 for parallel runs) is a statement about all of them; the comparison of one simulation (`sim_check`) is shown equivalent to
closeness of the two result vectors (`close`, `ExhaustSem.v`) for unit vectors; the counterexample is diag(1,-1) against the identity.
`ExhaustGivenProofs.v` carries the result through the constructor (C64, C65) to the circuits as given; a classical operator stays classical when lifted or cut down.
Operators with one nonzero entry per column (`monomial`) are decided up to a diagonal operator: along different basis states the inner product is 0.
C84 a second parallel run without reset() (`ParAgain*.v`): the transition system of `ParFlow.v`, started with the checkers, flags and results another
run has left behind; shown to coincide with `ParFlow.v` on a new manager. Invariants over all schedules (where verdicts come from, which flags are
set), induction over the number of runs, and a measure for the bound on steps; the expectations that fail are refuted with concrete schedules.

C83 sharing between Python objects (`PyObjects*.v`): a heap of configurations, free-standing sections, managers and results, and variables that hold
values or references; a frame lemma per statement, lifted to programs by induction. The manager's constructor, methods and run() are arbitrary functions.
Recalled of pybind11 and assumed: def_readwrite reads a bound class or enumeration as a reference into its owner and anything else as a copy.
C82 refusals in the parallel flow (`ParRefusal*.v`): a further invariant of the transition system of `ParFlow.v` (a checker exists only if its
constructor does not refuse; pending exceptions are in the queue), an explicit schedule for each possible exception, and the finiteness of schedules.
C81 entry points with exceptions (`PyEntry*.v`): importers, manager, Qiskit and numpy are arbitrary functions that may raise or not return;
the flow for parameterised circuits is shown to be C45's, cut off at the first failing step (induction on the rounds). C76 defaults (`Defaults*.v`). C45's timeouts (`PyParamTime*.v`): durations of the checks are arbitrary inputs.

Not expressible in the model: floating-point rounding inside the DD package (the model's DD operators are exact), sharing of nodes
inside diagrams, wall-clock durations of the C++ checks. The interleaving models assume sequential consistency; C77 shows which accesses are data races, i.e. for
which the C++ standard does not guarantee that (all are part of the cancellation).

## Trusted base

* The Coq 8.16.1 kernel, `coqc` and (for reduction in examples) `vm_compute`.
* `Print Assumptions` reports **"Closed under the global context" for every theorem listed in `MANIFEST.json`** (the
  output is part of the build log of every `Prop*.v`). No axiom is used, neither from the standard library nor from
  anywhere else: mathcomp's algebra is axiom free, `Q`, `N`, `nat`, `string` come from the standard library.
* Libraries: Coq standard library, mathcomp (ssreflect, fingroup, algebra). No functor, module type, `Declare Module`,
  `Axiom`, `Admitted`, section-less `Variable`; no kernel check switched off.
* The reading of `/repo` recorded in the comments of each definition.

### Assumptions about code outside /repo (recalled, not checked)

* `getDD` / `getInverseDD` yield the operator of a gate (its inverse) under the current permutation; `changePermutation`
  composes with the permutation operator and updates the map; `isCloseToIdentity` and `isIdentity` up to phase in exact
  arithmetic (`DDCheck.v`, `DDSem.v`).
* `ZXDiagram::makeAncilla(in, out)` fixes an input and an output wire (`ZXAnc.v`); it finds them by their current positions in
  the vectors of inputs and outputs and erases them there (`ZXFix.v`; the consequence for permuted ancillaries is
  `C73_fixed_wires_refuted`).
* `isCloseToIdentity` with garbage flags and `reduceGarbage` with normalised weights as defined in `PartialEq.v`.
* `dd::ComplexNumbers::setTolerance` assigns the static variable `dd::RealNumber::eps` (`Tolerance.v`).
* `Operation::equals` compares type, parameters, controls and targets (targets as a set for symmetric gates) after
  applying the permutations; `Permutation` is a `std::map` with ascending keys.
* `QuantumComputation::isIdleQubit`, `containsLogicalQubit`, `removeQubit`, `addAncillaryRegister`, `addAncillaryQubit`,
  `setLogicalQubitAncillary/Garbage` as documented in `Prep.v`.
* The passes of `CircuitOptimizer` and the rewrite rules of the ZX package are arbitrary functions / hypotheses.
* `makeBasisState` with `BasisStates` yields the product of the named one-qubit states, first list entry = lowest qubit (`StimSem.v`);
  the state of a random Clifford circuit on the first r qubits is a unit vector that is |0> on the others (hypothesis `clifford_states`).
* `std::uniform_int_distribution` returns values in its range; `std::mt19937_64` is an arbitrary stream.
* `BasisStates` enumerator order (mqt-core), `std::istream` extraction rules used by the profile reader.
* `EquivalenceCheckingManager::done` and the vector of checkers are read and written without synchronisation: formally a
  data race. The models treat each access as atomic and sequentially consistent.
* Python: `is` on strings is treated as equality; numpy's `det`, `inv`, `dot` are an abstract solver; sympy/qiskit
  expressions are affine expressions plus an abstract "other" constructor.

### Not modelled

logging to `std::clog`, timing fields, the DD package's internals, parsing of circuit
files, `qc::import`, the benchmark/test code, the pybind glue (`bindings.cpp`) except for the attribute names (C47), the defaults (C76),
the import and construction functions (C81) and which objects share state (C83), and
the measurement of circuit costs for a profile (qiskit transpilation, `compute_cost`; C71 takes the costs as an arbitrary function).

## Testing the theorems against wrong programs

`seeded/LOG.jsonl` records each edit of a model definition, the claim it breaks, the theorems that failed and those that were
tightened as a consequence.
