# Formal model of edsuom/ade

Source: `/repo` (python package `ade`), read as text. Prover: Coq 8.16.1.
Development: `rocq/theories`, logical root `Verif`.

## Layout

| file | content |
|---|---|
| `Flt.v` | IEEE binary64 as Flocq `binary_float 53 1024`, python/numpy comparison and arithmetic operators, single-precision rounding, order lemmas |
| `Py.v` | exceptions as values, python list/dict helpers, specification of `np.argsort` |
| `*Model.v` | the code, function by function, computable, no proofs; every definition cites file:lines of `/repo` |
| `*Spec.v` / spec sections | small specifications that do not mention model helpers |
| `*Proofs.v` | lemmas |
| `*Props.v` | the theorems named in MANIFEST.json, each with a concrete non-trivial example that meets its hypotheses and `Print Assumptions` |

Conventions: a python exception is a value (`Raise e`); random draws, user
callables (evaluation function, constraints, callbacks), numpy tie-breaking,
hash salts and completion orders are universally quantified arguments (oracles
or event lists), never fixed. Numbers that the code computes with in binary64
are modelled as binary64 with round-to-nearest-even, not as reals, except where
a property is stated to be about exact arithmetic (part of C04, C27 probability, C42).

## Plan per property

| id | modelled | how proved |
|---|---|---|
| C01 | `ParameterManager.limit` on binary64, coordinate by coordinate | case analysis on the three `where/clip` stages using the order lemmas of `Flt.v`; NaN-freedom from Flocq's correctness theorems; necessity by computed counterexamples |
| C02 | `challenge` mutation (`-`,`*`,`+`), `crossover`, `limit` | composition with C01; NaN-freedom side condition proved for finite parents |
| C03 | `crossover` with a tape of draws | induction on positions |
| C04 | `fromUnity`/`toUnity` over reals; the same in binary64 | field/psatz coordinatewise; relative and absolute error of each rounding |
| C05 | `passesConstraints`, `setConstraints` | induction on constraint list, permutation |
| C06 | `sortedNameIndices`, `sortedNamerator` | permutation lemma for `index` on duplicate-free lists |
| C07 | `stringValue` suffix | case analysis and Flocq division lemma |
| C08 | constructor arithmetic | `lia` |
| C09, C10 | `KS`, `iSorted`, `kBest`, `best`, `__setitem__`, `push`, `blacklist` as a state machine with caches; argsort = any sorted permutation | invariant over all operation sequences |
| C11, C12 | `sample`, `ProbabilitySampler`, loop head of `_run`, index part of `challenge` | list lemmas; float range lemma for `int(rv*len)` |
| C13-C16 | `Individual` | case analysis over float classes, order lemmas |
| C17-C19 | `FManager` on binary64; `scale**-0.88` is a parameter >= 1 | invariant over call sequences; well-founded descent on binary64 |
| C20-C24 | locks + challenges as a labelled transition system: request, grant, read, three releases, evaluation, replacement, release, shutdown, abort | inductive invariants; serializability by a commuting/prefix argument on per-slot queues; termination measure |
| C25, C26 | `_run` as a function of the list of generation outcomes | induction |
| C27 | `replacement`, `_keepStatusQuo` | induction; Reals `sin` monotonicity |
| C28-C30, C56 | `setup` as event machine (completion, abort, wake-up) | invariant over all event lists |
| C31-C35 | `History` + row sets of `ClosestPairFinder`; pair choice is an oracle | invariant over all operation sequences; computed counterexamples |
| C36 | `__getstate__`/`__setstate__` | invariant + u2 round trip |
| C37 | `pairs_all`, `pairs_sampled`, `calcerator` selection | list lemmas |
| C38-C42 | `Analysis` helpers | induction |
| C43-C46 | `Reporter` | invariant over report sequences; callback runner as event machine |
| C47 | `abort` module | induction with fuel-free measure (callbacks may register callbacks) |
| C48, C49 | `constraints` | induction |
| C50, C51 | `specs` | induction on paths; parser round trip |
| C52 | `examples.extract` on a finite map of files | induction |
| C53 | `load`, `__setstate__` | invariant |
| C54, C55 | `lgg` | induction |
| C57 | setup + challenge | invariant |
| C58 | constructor | case analysis |
| C59-C61 | `lgg` table | induction; permutation and sortedness |
| C62, C63 | population list + history together (`PopHModel.v`) | invariant over all operation sequences |
| C64-C66 | `Grepper.filerator`, its regular expressions, and the text the package logs (`LogModel.v`) | the line matcher is characterised on the documented line shapes; induction on lines |
| C67-C69 | `Messenger` as a state machine over calls with an I/O failure oracle | invariant over all histories of calls |
| C70-C72 | `EvalTimer`, `Picklable`, `ImageViewer.spawnViewer` | induction; permutation and sortedness |
| C73 | `ExecProtocol` + `DeferredLock`, `MultiRunner` | invariant for at most two outstanding commands; induction for the general schedule |
| C74-C76 | `thermistor.py`, `voc.py` evaluators | computation on symbolic lists; monotone binary64 addition and multiplication |
| C77-C79 | the models of C02, C03, C20-C24 | per-position formula; invariants over all executions |
| C80-C85 | `_run` driving the challenge transition system of C20-C24, ending each generation with the function of C25 (`LoopModel.v`) | invariant per phase of the loop; simulation of the two older models; potential function for the number of steps |
| C86 | `Reporter.progressChar` on the messenger of C67 (`ProgModel.v`) | invariant on the width of the lines sent |
| C87, C88 | `Individual` as a mapping; a heap of arrays (`MapModel.v`) | induction; separation invariant over all operation sequences |
| C89, C90 | `lock`, `release`, container methods (`ContModel.v`) | induction on index lists |
| C91 | `args2names`, `value_vs_SSE`, `plot` (`VsModel.v`) | column and row correspondence; sorting |
| C92 | `ImageViewer` as a transition system (`ViewModel.v`) | invariant over all events |
| C93 | `lineFit` weights (`PlotModel.v`) | order and error analysis of two binary32 roundings |
| C94 | `plotXY` (`PlotModel.v`) | index ranges of classes, float error of fraction times number |
| C95 | `_widthHeight`, `filePath`, `makePlotter` (`PlotModel.v`) | induction on the calls |
| C96 | `Args` (`ArgsModel.v`) | invariant of the declarations, induction on the tokens |
| C97 | `main` of `scripts/pv.py` (`PvModel.v`) | case analysis, C91's and C40's models of the plots |
| C98 | `Data.load`, `TimeData.parseValues` (`DataModel.v`) | stable insertion sort, induction on the readings |
| C99 | `TemperatureData.setWeights` (`DataModel.v`) | monotone rounding; differences of distinct floats are not zero |
| C100 | `Runner.tempDiff`, `decideFan` of doc/ade-thermistor-usage.py (`FanModel.v`) | monotone rounding, one real-valued characterisation of the decision, error bounds of three roundings |
| C101 | `Runner.setFan`, `getTemps`, `run` (`FanModel.v`) | invariant over rounds: last write is the state, readings are the filtered samples since the last row |
| C102 | `IIR`, `Runner.v2t` (`FanModel.v`) | closed form of the recursion over reals; monotone rounding; NaN as an invariant |
| C103 | `waitForReports`, `History.shutdown`, the history's lock, `waitForCallbacks` (`WaitModel.v`) | invariant relating the lock's queue to the sequence of events |
| C104 | `challenge`, `__setitem__`, `history.add`, `notInPop` together (`RecModel.v` over `ChalModel.v`, `HistModel.v`, `PopHModel.v`) | invariant: queue of the lock = rest of the operations of the log; C62 for the members |
| C105 | `calcerator` (`PairModel.v` over `HistModel.v`) | np.argmin by induction; float arithmetic on numbers not below zero; reachable histories for the rows |
| C106 | the generation loop with its reports and `FManager` (`AdaptModel.v` over `LoopModel.v`, `FManModel.v`) | simulation by the loop of C80-C85; multiset of reports as an invariant; sums of integers do not round |
| C107 | `MultiRunner`, `Runner.shutdown` (`PoolModel.v` over `ExamModel.v`) | projection to each executable; pigeonhole modulo N; absorbing state when no runner is left |
| C108 | `Evaluator.curve`, `__call__` of both examples (`FitModel.v` over `ExamModel.v`) | magnitude bounds through each rounding; monotone rounding; relative errors as powers of 1 + 2^-52 |
| C109 | `fill`, `prettyValues`, `Individual.__repr__` (`WrapModel.v` over `LogModel.v`) | induction on the fuel of the line loop; items with single spaces; C64 for reading back |
| C110 | `runCallbacks`, `blacklist`, `challenge`, `_run` (`CompModel.v` over `LoopModel.v`) | simulation: every run with complaints is a run of C80-C85 with some outcome of each comparison; induction from a slot's occupant |
| C111 | `setup` followed by `_run` (`SetupModel.v`, `CompModel.v`) | origin of members by induction from the end; invariant over setup's steps; C28, C110 |
| C112 | `lgg_main`: `main`, `Grepper.__init__`, `load`, `makeLines` (`LggMainModel.v`) | joins C54, C59, C60, C64 and C109; induction over entries and names |
| C113 | `_run` with `Reporter.__call__`, `newBest`, `runCallbacks` (`RunRepModel.v` over `CompModel.v` and `RepModel.v`) | simulation: the complaints of callbacks are complaints of C110; invariant linking the last announced individual to the best member; C45, C111 |
| C114 | `DifferentialEvolution.__call__`, `Population.load`, `save`, `__setstate__` in turns (`CampModel.v` over `CompModel.v` and `LoadModel.v`) | induction over the sessions with C110, C111 for each; invariant on the loop for the first generation |
| C115 | `Runner` of `thermistor.py` and `voc.py`, `Solver`, `main` (`RunnerModel.v`) | induction over events for the queue; what a program does as a condition on its parts |
| C116 | `Reporter.__call__` of `thermistor.py` and `voc.py`, np.linspace (`ShowModel.v`) | relative error of the step for the last but one point; monotone rounding; C108 for the curves |
| C117 | `ParameterManager.__init__`, `setConstraints`, `passesConstraints`, `Population.setConstraints`, `notseq` (`HoldModel.v`) | lists and iterators as addressed objects; invariant that a list made by `setConstraints` belongs to one manager; lists only grow, iterators only shrink |
| C118 | `Population.setConstraints`, `ParameterManager.setConstraints` during `DifferentialEvolution._run` (`SetRunModel.v`) | simulation: each challenge looks at the constraints once, so a run is one of `LoopModel.v` with constraints per challenge; origin of members by induction on the events |

## Trusted base

* Coq 8.16.1's kernel (and `coqchk`), the Coq standard library, and the definitions (not the
  proofs) of Flocq 4.1.0's `BinarySingleNaN` as the meaning of IEEE binary64.
* The axioms in the next section; all are the standard library's. The development adds none.
* That the model is faithful to the python source. Each definition cites its lines and says where
  it is simplified; the section "What is modelled" lists the simplifications.
* Python, numpy, Twisted (`DeferredLock` FIFO hand-over, `DeferredList`, `DeferredQueue`,
  `inlineCallbacks`, single-threaded reactor, `callLater(0)` in order) and asynqueue
  `DeferredTracker` behave as the model comments describe.

## Assumptions

From `Print Assumptions` of every theorem in MANIFEST.json (625 theorems). The same commands stand
at the end of each `*Props.v`.

* Closed under the global context (234 theorems); all the others.
  C03: consequences, crossover; C05: conjunctive, dict, no_constraints, order_independent, order_raising_refuted, setConstraints; C06: ascending, duplicate_refuted, duplicates, own_name_and_value, positions_once; C08: monotone, population_size; C09: empty; C106: bonus; C107: None, None_error, at_once, free_refuted, in_turn, own, shutdown, stopped_refuted, two_each; C109: brackets_refuted, individual, items, lines, long_refuted; C115: gone, late_refuted, none, queue, repeated, repeated_refuted, solver, split; C117: again, again_refuted, appended, callable_refuted, constructed, default, default_refuted, extend, iterator, list, made, refused, set; C13: nan_incomparable, sse_reading; C14: copy, pickle, update; C16: values_otherwise; C20: async_equals_sequential; C21: exclusive, exclusive_after_shutdown_refuted, reads_under_lock, writes_own_target; C22: all_finish, bounded, crash_refuted, progress; C23: aborted_overlap_refuted, slots_any_schedule, slots_never_worse; C24: frozen_after_fatal, frozen_after_shutdown, second_shutdown; C30: aborted_before; C37: pairs_all; C38: figures, grid, nothing_refuted, sizes; C39: distinct, no_extension_refuted, shape, two_bases_refuted; C40: each_pair_once, last_refuted, plot_all, plot_name; C41: inverse, sse_column_refuted, unknown; C47: enter, error_refuted, ignored, once, order, restart_refuted, self_refuted, shutdown, shutdown_order_refuted, terminates; C49: append, checked, collected, own_dict, stale_refuted; C50: prefix_refuted, stored, surplus_keys_refuted; C51: commas, empty_file_refuted, hyphens_rejected, layout, lone_name_refuted, lower, missing, noise, number_dict_rejected, number_rejected, read, unterminated_refuted, values, white, words; C52: absent, again, extract, names, readme_refuted, specs_refuted; C55: concat, decimal, letters, members, numbers, other, zeros_refuted; C56: last_row_unused; C60: names; C61: heading, row, wide_refuted; C64: ends, individual, infinite_refuted, log, name_refuted; C65: mixed_refuted; C66: population, table; C67: blank, blank_refuted, consecutive, format, switch_refuted, text, zero; C68: closed, failure, off, raises, replaced, return_refuted, set, stays, stdout; C69: line_written_refuted; C71: kept, same_refuted, shadow; C72: args, none, options_refuted, run; C73: all_last, early_refuted, in_turn, own_refuted, progress, shutdown_refuted, two; C74: args, drift, names, short; C86: blank_line_refuted, count_after_message_refuted, fill, line_length, reset; C87: constraints_see_params, missing, params, write, write_by_name_refuted; C88: challenge, copy, no_interference, spawn_array_refuted, update_array_refuted; C89: first_come, lock, lock_release, negative_index_refuted, refused_keeps_refuted, release, release_none_refuted, shutting_down, too_large_refuted, twice; C90: beyond, contains, evalTimes, individuals; C91: all, names, slice; C92: already_running, at_most_once, file_removed_refuted, first, later_refuted, next, pids; C96: blank_lines_refuted, bool_refuted, constant, default, late_refuted, len_refuted, options, run, sequence, text; C98: load.
* `ClassicalDedekindReals.sig_forall_dec`, `ClassicalDedekindReals.sig_not_dec`, `Classical_Prop.classic`, `FunctionalExtensionality.functional_extensionality_dep` (385 theorems); all the others.
* `ClassicalDedekindReals.sig_forall_dec`, `FunctionalExtensionality.functional_extensionality_dep` (5 theorems):
  C04: ends_order_range, inverse; C102: constant, range, step.
* `ClassicalDedekindReals.sig_forall_dec`, `ClassicalDedekindReals.sig_not_dec`, `FunctionalExtensionality.functional_extensionality_dep` (1 theorems):
  C27: probability.

`sig_forall_dec`, `sig_not_dec` and `functional_extensionality_dep` come with the standard
library's real numbers; `classic` is used by Flocq's rounding lemmas.

## What is modelled, and where it is simplified

* Numbers (`Flt.v`): binary64 with one NaN. Python int/numpy int types are not distinguished from
  each other. `np.sin`, `np.power`, `np.exp`, `np.corrcoef`, `float()` of a text, `str.format` of
  floats are arbitrary functions; C27 assumes np.sin(-pi/2) = -1.0.
* Parameters (C01-C08): C04 is stated twice, in exact arithmetic and, with error bounds, in binary64 (`C04_float_*`, bounds below 2^1022 in size). C11's draw is a multiple of 2^-53 below 1;
  the index bound needs 1 - 2^-28 as stated there.
* Individuals (C13-C16): the SSE is None or a float; a hash is the list of hashed floats.
* Challenges (C20-C24): each event is one reactor turn; evaluation results, completion order,
  shutdown, abort and failures are free. C22 assumes that the history's Deferred fires and the
  report does not raise; C23 leaves out blacklisting of a member during the run, which C110 has.
* Generations (C25-C27): the challenges of a generation are given by their outcomes.
* Whole runs (C80-C85): the loop starts the challenges; the base index is any valid one, the reported
  ratios are free, populations of less than four members (which the code cannot make) get stuck.
* Setup (C28-C30, C56): the Latin hypercube is any matrix of the right size; complaints
  (C28) are an exception to delivery; DeferredTracker keeps its documented limit.
* History (C31-C37): operations are atomic (they run under one FIFO lock); row hashes, distances
  and candidate sampling are oracles; `cpf.X` as such is left out.
* Analysis (C38-C42): POSIX paths; `list.sort` is a stable insertion sort; the float precision of
  an SSE column is a parameter `rd`; what is drawn is left out but for C91 and C94.
* Reporter (C43-C46): the number of callbacks is constant, an abort is not undone; line breaks of
  progress output are in C86.
* Abort (C47): the stdin transport and signal handling are left out; callbacks are scripts of calls
  to the module.
* Constraints and specs (C48-C51): ASCII text; names that are python keywords not treated.
* Example extraction (C52): a finite map of files; no links or permissions.
* Load and save (C53): the pickle and bz2 round trip is assumed; the debug flag is left out.
* lgg (C54, C55, C59-C61, C64-C66): `fnmatch` is an oracle; SSEs of log entries are not NaN; ASCII
  white space and digits; text wrapping is any grouping of the parts into lines.
* C58: values of type bool and tuple are abstract. C62: `__setitem__` with index >= 0, distinct hashes.
* Messenger (C67-C69): closing a handle does not raise; handles are truthy.
* EvalTimer, Picklable, ImageViewer (C70-C72): the timed function returns a Deferred; no slots.
* Progress symbols (C86): the reporter's other use of the messenger is any sequence of its operations.
* Individuals and containers (C87-C90): arrays are of type float; slices as keys are left out; a lock is a
  DeferredLock, its callbacks run outside lock() and release().
* Plots (C91): titles, x and y data of the subplots; colours, scales and annotations are left out.
* Scatter plots (C93-C95): `polyfit`, `float(text)` and the DPI are oracles; of the line its x range is
  kept; binary32 arithmetic is binary64 arithmetic rounded again.
* Command lines (C96): argparse is modelled as far as used, for command lines already split into options
  with their texts and positional texts; type conversions and `textwrap.fill` are oracles.
* `scripts/pv.py` (C97): figures are values telling what is drawn; loading is an oracle.
* Example data (C98, C99): rows are what `csv.reader` gives; `float(text)` and the cube are oracles; the
  python version is a parameter.
* Fan controller (C100-C102): times are integers in microseconds; np.exp and np.log are oracles; the
  sensor and GPIO libraries do not raise; the statements on the filter alone are over exact reals.
* Waiting (C103): `DeferredLock` is first come, first served; `DeferredTracker.deferToAll` fires when the
  Deferreds put so far have fired or `quitWaiting` is called; both libraries are assumed, not modelled.
* Recording (C104): the history's lock is first come, first served; an individual does not change
  between its evaluation and its record.
* Distances of records (C105): np.var of a column and np.exp are oracles (finite, not negative, not huge
  where a theorem says so), np.sum adds in any order; the rows of the pair finder are those of the history.
* Adaptation (C106): callbacks that complain about an individual, and so change it in place, are left out;
  the ratio of msgRatio is a quantified function of challenger and target (C44 says which).
* Curves of the examples (C108): `np.log`, `np.exp`, `lnR**3` and `drift**4` are functions of
  which the theorems assume only a range, monotonicity and, for C108_formula, the relative
  accuracy of the cube; `np.sum` adds in any order; each numpy operation on vectors is the same
  operation on each entry.
* Wrapping (C109): `TextWrapper` is modelled after CPython's `textwrap` with the options of the code,
  for ASCII text.
* Complaints (C110): a complaint may come at any time about any individual that has been evaluated;
  which ones the reporter announces is in C46 and C47.  An individual is its number, values and SSE.
* Constraints set during a run (C118): calls come between the events of the run, not inside a constraint being asked; F, CR and
  the draws of a challenge are any functions of its number.
* Pool of executables (C107): Twisted's `DeferredQueue` as documented; all processes started, each answering
  its lines one after the other.
* ImageViewer (C92): answers of the system come with the events; spawnProcess and writing the PID file
  do not fail.
* Reports (C116): `str.format` and `prettyValues` are any functions to text; the plotter does not raise; numpy's
  `linspace` as in its source (arange times step plus start, last point replaced).
* Examples (C73-C76): each answer of the executable arrives by itself; residual sums and drifts are
  given as floats; the curve is taken at one time.

## Not modelled

* GUI and drawing: `scripts/viewer.py`, plotting through yampex/matplotlib.
* The C programs; drawing in the examples' reporters (what they hand to the plotter is in C116).
* Console text other than what C44, C64-C69 speak about, wall-clock timing, pyDOE, file formats of
  pickle, bz2 and npy.

A theorem whose name ends in `_refuted` shows that a documented or expected behaviour does not
hold; its witness is part of the proof.
