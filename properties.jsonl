{"id": "C01", "title": "Bounds limiting always lands inside the bounds", "statement": "Population.limit(i) leaves every parameter value of i inside its declared [lower, upper] bound, whatever finite or infinite value was there; a value already inside is returned unchanged; a value that overshoots a bound by no more than the width of the range is replaced by its mirror image in that bound; limiting twice is the same as limiting once. (Bounds must be below 2**1023 in magnitude and the value not NaN; both restrictions are shown to be necessary.)", "quantifier": "all IEEE binary64 values (including infinities and subnormals) and all bound pairs lower<=upper with magnitude below 2**1023", "why_tests_cant": "The input space is all doubles; the interesting cases are rounding, overflow to infinity and inf-inf, which sampled tests never hit.", "anchors": ["ade/population.py: ParameterManager.limit", "ade/population.py: Population.limit"]}
{"id": "C02", "title": "A challenger is always inside the bounds", "statement": "Whatever the four parent individuals, the differential weight and the random crossover draws are, the challenger that DifferentialEvolution hands to the evaluation function has every parameter inside its bounds (no NaN arithmetic having occurred), so every individual a run puts into the population is inside the bounds.", "quantifier": "all populations inside the bounds, all finite F, all random draws, all bounds", "why_tests_cant": "Requires all parent combinations and all random draws.", "anchors": ["ade/de.py: DifferentialEvolution.challenge, crossover", "ade/individual.py: Individual.__add__, __sub__, __mul__", "ade/population.py: Population.limit"]}
{"id": "C03", "title": "Crossover keeps at least one mutant value and mixes only parent and mutant", "statement": "After crossover each parameter of the challenger is either the mutant's or the parent's value at the same position, at least one randomly reserved position has the mutant's value, a position is the parent's exactly when it is not the reserved one and its draw exceeds CR; with CR=1 the mutant is unchanged; the parent is never modified.", "quantifier": "all dimensions Nd>=1, all parents and mutants, all CR in [0,1], all random draws", "why_tests_cant": "Ranges over every dimension and every random outcome.", "anchors": ["ade/de.py: DifferentialEvolution.crossover"]}
{"id": "C04", "title": "Normalised and actual parameter values convert back and forth", "statement": "In exact arithmetic ParameterManager.toUnity undoes fromUnity and vice versa for every range of non-zero width, unit values 0 and 1 map to the lower and upper bound, order is preserved, and every unit value in [0,1] maps inside the bounds. In binary64 as the code runs it, 0 maps exactly to the lower bound and lower and upper bound map exactly to 0 and 1, both conversions keep the order of values, a value taken to the unit interval and back differs from itself by at most 2^-53 of its size plus 2^-51 of the width of its range plus 2^-1074, and a unit value taken to its range and back differs by at most 2^-51 plus the quotient of 2^-52 of the larger bound (in size) plus 2^-1074 by the width of the range; it does not always come back the same.", "quantifier": "all real bounds with lower<upper and all real values, all dimensions; all binary64 bounds below 2^1022 in size and all values between them", "why_tests_cant": "A continuum of values.", "anchors": ["ade/population.py: ParameterManager.fromUnity, toUnity, setup"]}
{"id": "C05", "title": "Constraints are conjunctive and order independent", "statement": "passesConstraints accepts a value vector exactly when every registered constraint callable accepts the name->value dict built from it; no constraint accepts everything; setConstraints replaces all previous constraints or, if any argument is not callable, raises and leaves them as they were; with pure constraints reordering them does not change the outcome.", "quantifier": "all constraint lists, all values, all previous constraint sets", "why_tests_cant": "All lists of arbitrary predicates.", "anchors": ["ade/population.py: ParameterManager.passesConstraints, setConstraints", "ade/population.py: Population.setConstraints"]}
{"id": "C06", "title": "Sorted-name iteration visits every parameter exactly once", "statement": "For distinct parameter names sortedNamerator yields, in ascending name order, each parameter position exactly once, paired with its own name and its own value. With duplicated names it repeats the first position and never reaches the others.", "quantifier": "all name lists and all value vectors", "why_tests_cant": "All lists of names, any length and order.", "anchors": ["ade/population.py: ParameterManager.__init__, sortedNamerator"]}
{"id": "C07", "title": "Boundary stars mark exactly the outer five per cent", "statement": "stringValue appends '*' exactly when the normalised value is below 0.05, '**' exactly when above 0.95 and never both; a value at the lower bound always gets '*' and one at the upper bound '**' (range of positive finite width).", "quantifier": "all bounds and values (binary64)", "why_tests_cant": "Continuum of values and bounds.", "anchors": ["ade/population.py: ParameterManager.stringValue"]}
{"id": "C08", "title": "Population size stays between its documented limits", "statement": "For every popsize argument (None, zero, negative, huge) and number of parameters, the population size Np lies in [20, 500], equals popsize*Nd whenever that is in the range, is monotone in popsize and Nd, and is therefore always large enough to draw four different individuals.", "quantifier": "all integers popsize or None, all Nd", "why_tests_cant": "Unbounded integer inputs.", "anchors": ["ade/population.py: Population.__init__"]}
{"id": "C09", "title": "Ranking by SSE is a permutation and its head is a best individual", "statement": "After any sequence of item assignments, pushes, blacklistings and rank look-ups on a set-up population, KS lists every population index exactly once in non-decreasing order of the current SSEs (NaN last), iSorted is the matching list of individuals, kBest is the first entry of KS and best() has an SSE not beaten by any member.", "quantifier": "all histories of ranking-relevant operations on populations of any size; any tie-breaking of the sort", "why_tests_cant": "Cache invalidation bugs depend on the history of calls.", "anchors": ["ade/population.py: Population.KS, iSorted, kBest, best, __setitem__, push", "ade/individual.py: Individual.blacklist"]}
{"id": "C10", "title": "push evicts exactly the worst individual", "statement": "push(i) replaces one individual whose SSE is the largest (or NaN) of the population by i and leaves every other member in place, so the population size is unchanged and no better individual is lost.", "quantifier": "all populations, all individuals, any tie-breaking of the sort", "why_tests_cant": "All populations.", "anchors": ["ade/population.py: Population.push, __setitem__"]}
{"id": "C11", "title": "sample returns distinct, non-excluded indices, best first when asked", "statement": "sample(N, *exclude) returns N pairwise different population indices none of which is excluded whenever enough are available; with randomBase False it returns the best non-excluded index; probability sampling with randomBase in (0,1) never goes out of range and returns distinct non-excluded indices; randomBase above 1 is rejected.", "quantifier": "all populations, all exclusion lists, all N, all randomBase, all random draws", "why_tests_cant": "All random outcomes and all exclusion patterns.", "anchors": ["ade/population.py: Population.sample, ProbabilitySampler.__call__, trapz"]}
{"id": "C12", "title": "The four indices of every challenge are different", "statement": "In every generation, for every target kt and every base-selection mode, the target, base and two difference indices handed to Population.lock are pairwise different valid indices, so lock never raises its 'same lock twice' error and never sees an invalid index; with randomBase False the base is the current best individual unless that is the target, in which case it is the best of the others.", "quantifier": "all populations of at least four members, all targets, all rankings, all random draws, all randomBase settings accepted", "why_tests_cant": "All rankings and random outcomes.", "anchors": ["ade/de.py: DifferentialEvolution._run, challenge", "ade/population.py: Population.sample, lock"]}
{"id": "C13", "title": "SSE reading, truth value and comparison of individuals", "statement": "The SSE of an individual reads as +inf when none was set or the stored one is negative and as the stored value otherwise, so it is never negative; the individual is false exactly when the stored SSE is negative; '<' and '>' between individuals are strict, asymmetric, transitive comparisons of the SSE, total except for ties and NaN, and an individual with a NaN SSE neither beats nor is beaten by anyone.", "quantifier": "all stored SSE values (None and every binary64 including NaN, infinities, signed zeros)", "why_tests_cant": "All special values and all triples for transitivity.", "anchors": ["ade/individual.py: Individual.SSE, __float__, __bool__, __lt__, __gt__"]}
{"id": "C14", "title": "copy, pickling and update of individuals", "statement": "copy() yields an individual with the same values that compares equal and ranks the same; pickling and unpickling restores values, stored SSE and timing exactly; update() with the wrong number of values raises and changes nothing. copy() of an individual that failed fatally loses the failure (its copy is true).", "quantifier": "all individuals and all value lists", "why_tests_cant": "All lengths and all values.", "anchors": ["ade/individual.py: Individual.copy, __getstate__, __setstate__, update"]}
{"id": "C15", "title": "Equality and hashing of individuals", "statement": "Two individuals whose SSE and values are bit-identical have the same hash, so the history can find a member again; the hash raises for every finite SSE at or above the single-precision overflow threshold; individuals that compare equal can have different hashes only through signed zeros.", "quantifier": "all pairs of individuals", "why_tests_cant": "All pairs of doubles; the boundary is a single threshold in 2**64 values.", "anchors": ["ade/individual.py: Individual.__hash__, __eq__, equals"]}
{"id": "C16", "title": "An evaluation's outcome is recorded faithfully", "statement": "When the evaluation function succeeds its result becomes the individual's SSE and the population's evaluation counter goes up by one; when it fails (synchronously or asynchronously) the individual becomes fatal (false, SSE reads +inf) and the counter is unchanged; a population that is aborting never passes parameter values to the evaluation function.", "quantifier": "all evaluation outcomes and population states", "why_tests_cant": "All outcomes.", "anchors": ["ade/individual.py: Individual.evaluate", "ade/population.py: Population.evalFunc"]}
{"id": "C17", "title": "Adaptive F never leaves its original range", "statement": "After any sequence of up() and down() calls the lower end of F is at most its original value, the upper end at most its original value, both are unchanged by calls when not adaptive, and get() never exceeds the original upper end. A lower end of zero is replaced by the critical value, which can exceed the upper end; then get() can exceed it too.", "quantifier": "all initial F (scalar or pair), CR, Np, all call sequences, binary64 arithmetic", "why_tests_cant": "All call sequences and all doubles.", "anchors": ["ade/de.py: FManager"]}
{"id": "C18", "title": "Adaptive F stays ordered, above the critical value and wide", "statement": "After any sequence of up() and down() calls lower<=upper still holds if it held originally, the lower end is its original value or above the critical value sqrt((1-CR/2)/Np), and the upper end is its original value or more than three times the lower end.", "quantifier": "all initial F with 0<=lower<=upper, all CR in [0,1], Np>=1, all call sequences, binary64 arithmetic", "why_tests_cant": "All call sequences and all doubles.", "anchors": ["ade/de.py: FManager.down, up, lowest, highest"]}
{"id": "C19", "title": "F bottoms out after finitely many failures and says so", "statement": "limited is true exactly when the most recent effective call was a down() that could not reduce F; an up() always clears it; from any reachable state enough consecutive down() calls make it true, and enough consecutive up() calls bring F back to exactly its original value(s); it never becomes true when not adaptive. The factors up() uses for the default scales 0.89 and 0.87 are their powers -0.88 within half a unit in the last place, both above one.", "quantifier": "all reachable adaptive states, all call sequences, binary64 arithmetic", "why_tests_cant": "Unbounded call sequences and termination.", "anchors": ["ade/de.py: FManager.down, up, limited"]}
{"id": "C20", "title": "Asynchronous challenges give the sequential result", "statement": "Whatever order lock grants, evaluations and completions happen in, once all challenges of any number of generations have finished the population is the one obtained by running the challenges one at a time in the order they were started, with the same random draws and index choices: asynchrony does not change the DE algorithm.", "quantifier": "all interleavings of any number of challenges over populations of any size, all index choices with pairwise different indices, all deterministic evaluation functions", "why_tests_cant": "Exponentially many interleavings.", "anchors": ["ade/de.py: DifferentialEvolution.challenge", "ade/population.py: Population.lock, release, individuals, __setitem__"]}
{"id": "C21", "title": "At most one challenge at a time owns a population slot", "statement": "While neither the optimizer nor the population is shutting down, at every point of every execution each slot lock is held by at most one challenge, a challenge reads slots only while holding all four locks, and it writes only the slot of its own target while still holding that lock; hence the target it compares against is still in the slot it replaces. During a shutdown this exclusiveness is lost.", "quantifier": "all interleavings, all numbers of challenges", "why_tests_cant": "Exponentially many interleavings.", "anchors": ["ade/population.py: Population.lock, release", "ade/de.py: DifferentialEvolution.challenge"]}
{"id": "C22", "title": "Challenges never deadlock", "statement": "Provided no constraint function raises and history updates complete, in every reachable state, as long as some started challenge is unfinished, some challenge can take a step or is waiting only for its own evaluation; every execution in which evaluations finish is finite and finishes all challenges, also when a shutdown or a population abort happens at an arbitrary point.", "quantifier": "all interleavings, all numbers of challenges, all shutdown points", "why_tests_cant": "Deadlocks depend on rare interleavings.", "anchors": ["ade/population.py: Population.lock, release, abort", "ade/de.py: DifferentialEvolution.challenge, shutdown"]}
{"id": "C23", "title": "No population slot ever gets worse", "statement": "Along every execution of challenges the SSE in each slot never increases, a slot changes only when its challenger's SSE is strictly lower, and the best SSE of the population never increases.", "quantifier": "all interleavings, all evaluation outcomes, executions of any length", "why_tests_cant": "Safety over unbounded executions.", "anchors": ["ade/de.py: DifferentialEvolution.challenge", "ade/population.py: Population.__setitem__"]}
{"id": "C24", "title": "After shutdown the population is frozen", "statement": "Once DifferentialEvolution.shutdown has been called (by the user, by a fatal evaluation, or at the end of a run) no later completion of an outstanding challenge changes any population slot; a second shutdown has no effect.", "quantifier": "all executions and all shutdown points", "why_tests_cant": "All crash/shutdown points.", "anchors": ["ade/de.py: DifferentialEvolution.shutdown, challenge"]}
{"id": "C25", "title": "Generation loop: bounded, consecutive, and stops for a stated reason", "statement": "A run performs at most maxiter generations, calls the per-generation callback with 0,1,2,... without gaps, and ends early only because it was shut down or because F was limited and more than dwellByGrave consecutive limited generations without enough improvement occurred since the last successful one; with bitterEnd or without adaptation only shutdown ends it early.", "quantifier": "all sequences of generation outcomes, all maxiter, dwellByGrave, bitterEnd, adaptive settings", "why_tests_cant": "Unbounded sequences of outcomes.", "anchors": ["ade/de.py: DifferentialEvolution._run, __call__"]}
{"id": "C26", "title": "A goal SSE can never be honoured", "statement": "Whenever goalSSE is set to a non-zero number, the first generation that completes without shutdown raises a type error instead of comparing the best individual's SSE with the goal, and goalSSE=0 is ignored; only without goalSSE does the run proceed.", "quantifier": "all runs, all goals, all populations", "why_tests_cant": "Holds for every goal and population; a finding about the documented goalSSE feature.", "anchors": ["ade/de.py: DifferentialEvolution._run"]}
{"id": "C27", "title": "Improvement score and status-quo inquiry", "statement": "The score since the last inquiry is the sum of 0.1 per zero-rated and rir-0.5 per higher-rated replacement; nothing is counted before the first inquiry, which always answers yes; a score above the status-quo score always answers yes; each inquiry resets the score. The probability of yes is 0 at score 0, 1 at the status-quo score and strictly increasing in between, so (contrary to its docstring) a generation without improvement is never rated status quo.", "quantifier": "all sequences of replacement calls; all real scores for the probability", "why_tests_cant": "All sequences; a continuum of scores.", "anchors": ["ade/population.py: Population.replacement, _keepStatusQuo"]}
{"id": "C28", "title": "A successful setup delivers exactly the requested population", "statement": "If setup fires with True the population has exactly Np individuals, each inside the bounds, evaluated (unless blank) with a non-fatal and non-infinite SSE, and obtained from values that pass all constraints; it never holds more than Np at any time, whatever order evaluations finish in and however many are rejected.", "quantifier": "all evaluation outcomes and completion orders, all candidate value streams, all constraints", "why_tests_cant": "All schedules of parallel evaluations.", "anchors": ["ade/population.py: Population.setup"]}
{"id": "C29", "title": "Setup limits parallel evaluations", "statement": "During setup at most N_maxParallel (12) evaluations are in progress at any time.", "quantifier": "all schedules and population sizes", "why_tests_cant": "All schedules.", "anchors": ["ade/population.py: Population.setup"]}
{"id": "C30", "title": "An aborted setup reports failure", "statement": "If the population is aborted at any point before or during setup (by the user, a fatal evaluation or unsatisfiable constraints), setup fires with None, the population stays stopped, and a DifferentialEvolution call on it returns at once without evaluating anything.", "quantifier": "all schedules and abort points", "why_tests_cant": "All abort points.", "anchors": ["ade/population.py: Population.setup, abort", "ade/de.py: DifferentialEvolution.__call__"]}
{"id": "C31", "title": "History records stay sorted, distinct and within capacity", "statement": "After any sequence of add, notInPop, purgePop-free operations on a history of capacity 2 or at least 4, the roster has at most N_max records in pairwise different rows, listed in non-decreasing order of stored SSE, and iterating it yields exactly the recorded SSE/value rows. The capacity is the one asked for, 1500 by default.", "quantifier": "all sequences of history operations, all capacities 2 or >=4, all SSE and values representable in single precision, any choice the pair finder makes", "why_tests_cant": "Unbounded histories; row allocation errors need specific histories.", "anchors": ["ade/history.py: History.add, kkr, purge, notInPop, __iter__"]}
{"id": "C32", "title": "Population members are never purged from history", "statement": "A record added as a population member stays in the history with its SSE and values until notInPop is called for it, no matter how many later records are added; only records of non-members are bumped when the roster is full.", "quantifier": "all sequences of operations, any choice of the pair finder", "why_tests_cant": "Unbounded sequences.", "anchors": ["ade/history.py: History.add, purge", "ade/history.py: ClosestPairFinder.__call__, clearRow, setRow"]}
{"id": "C33", "title": "History membership classes partition the roster", "statement": "In every reachable history each record is in exactly one of the classes in-population, formerly-in-population, never-in-population; the pair finder considers exactly the records that are not in the population; the value_vs_SSE filters inPop, notInPop and neverInPop return disjoint selections whose union is the unfiltered one, each made of the records whose SSE is at most maxRatio times the lowest (in single precision).", "quantifier": "all sequences of operations", "why_tests_cant": "Unbounded sequences.", "anchors": ["ade/history.py: History.add, notInPop, purge, clear", "ade/history.py: Analysis.value_vs_SSE"]}
{"id": "C34", "title": "Adding to history counts, ignores non-finite SSE, and returns the row", "statement": "add of an individual with infinite or NaN SSE leaves the history unchanged and returns None; any other add increases N_total by one, and returns a row index below N_max under which the individual's SSE and values (rounded to single precision) can be read back; existing records other than the bumped one keep their rows and contents.", "quantifier": "all histories and individuals", "why_tests_cant": "All histories.", "anchors": ["ade/history.py: History.add, writeRecord"]}
{"id": "C35", "title": "History row allocation fails in specific histories", "statement": "There are histories reachable through the public API in which add overwrites a live record (after purgePop left a gap) or raises and leaves the history locked forever (capacity 1 or 3; all rows held by population members; finite SSE beyond single precision).", "quantifier": "existential: concrete operation sequences; plus the universal statement that no other row-allocation failure exists for capacities 2 and >=4 without purgePop", "why_tests_cant": "Finding such histories needs reasoning over all operation sequences.", "anchors": ["ade/history.py: History.kkr, add, purgePop", "ade/history.py: ClosestPairFinder.calcerator"]}
{"id": "C36", "title": "Pickled history is restored exactly", "statement": "Unpickling the pickled state of any reachable history with capacity at most 65536 gives back the same names, records, order, membership classes, totals and the pair finder's row sets.", "quantifier": "all reachable histories", "why_tests_cant": "All histories.", "anchors": ["ade/history.py: History.__getstate__, __setstate__, _initialize, seq2bytes, bytes2array"]}
{"id": "C37", "title": "Closest-pair candidates are exactly the unordered pairs of active rows", "statement": "pairs_all returns every pair (a,b) of active rows with a<b exactly once, N(N-1)/2 in total; pairs_sampled returns exactly the requested number of such pairs; the row selected for bumping is an active row and, with two or more active rows, never the highest-numbered one. A round of sampling for at least eleven pairs draws at least as many as make the expected number of usable ones the number requested, and at most 7.5 percent more; for fewer pairs this is false.", "quantifier": "all sets of active rows, all random draws, all distance values", "why_tests_cant": "All sets and draws.", "anchors": ["ade/history.py: ClosestPairFinder.pairs_all, pairs_sampled, calcerator, __call__"]}
{"id": "C38", "title": "Figures show every parameter exactly once", "statement": "Plotting any number of parameters splits them into figures of at most nine subplots that together show each parameter exactly once in order; a figure has a single subplot only when there is exactly one parameter, and the last eight or ten are shown as two figures of four and four or four and six.", "quantifier": "all numbers of parameters", "why_tests_cant": "All natural numbers.", "anchors": ["ade/history.py: Analysis.pick_N, plot"]}
{"id": "C39", "title": "Plot file names are never reused", "statement": "Successive file paths produced for one base path are pairwise different, start with the base path itself and keep its extension and directory.", "quantifier": "all base paths, any number of figures", "why_tests_cant": "Unbounded sequences.", "anchors": ["ade/history.py: Analysis.filePath"]}
{"id": "C40", "title": "Correlation iterator covers each parameter pair once, strongest first", "statement": "correlator yields each pair of parameter columns k1<k2 exactly once, in non-increasing order of absolute correlation; with a name given plotCorrelated only ever shows pairs in which that parameter is the first column, so the last parameter is never shown.", "quantifier": "all numbers of parameters and all correlation values", "why_tests_cant": "All sizes and values.", "anchors": ["ade/history.py: Analysis.correlator, plotCorrelated"]}
{"id": "C41", "title": "Parameter names and columns correspond", "statement": "name2k and k2name are mutually inverse for distinct names and columns 1..Nd.", "quantifier": "all lists of distinct names", "why_tests_cant": "All lists.", "anchors": ["ade/history.py: Analysis.name2k, k2name"]}
{"id": "C42", "title": "SSE range selections", "statement": "Kf12 over consecutive fraction intervals partitions the records below the last limit: no record is selected by two different half-open intervals and every record with SSE in the union is selected; Kp12 over consecutive portions overlaps by one record at each interior boundary; a portion below zero counts from the last record and does not mean the first.", "quantifier": "all sorted histories, all increasing interval boundaries (exact arithmetic)", "why_tests_cant": "Continuum of boundaries.", "anchors": ["ade/history.py: Analysis.Kf12, Kp12"]}
{"id": "C43", "title": "The reporter's best is the minimum of everything reported", "statement": "After any sequence of reports without complaints the reporter's best individual is one of the non-fatal reported ones and no reported individual is strictly better; a NaN first report, however, stays best forever.", "quantifier": "all sequences of reports (one or two individuals), all SSE values", "why_tests_cant": "Unbounded sequences.", "anchors": ["ade/report.py: Reporter.__call__, newBest"]}
{"id": "C44", "title": "Improvement ratios and progress symbols", "statement": "msgRatio is None exactly for a fatal individual or a strictly worse challenger, 0 exactly for an equivalent one or a bogus challenger, otherwise at least 1 and equal to the half-even rounding of the SSE ratio (1000 for a bogus or zero denominator case); the progress symbol is the digit min(ratio,9) for proper ratios. For a reported pair the ratings credited are 1 as a bonus exactly when the challenger is strictly better than the best so far, then that ratio; nothing is credited after an abort or for a lone individual. In particular a challenge that failed with a bogus SSE is still credited with rating 0.", "quantifier": "all pairs of individuals, binary64 arithmetic", "why_tests_cant": "All pairs of doubles.", "anchors": ["ade/report.py: Reporter.msgRatio, isEquivSSE", "ade/population.py: Population.report"]}
{"id": "C45", "title": "Report callbacks are serialised and never miss the last best", "statement": "At no time are two callback runs in progress; callbacks run in registration order; whenever the reporter is idle and was not aborted, the most recently scheduled individual has been handed to every callback; each run hands out an individual that had been scheduled. A lone individual without fatal error is scheduled exactly when the report is forced or it is strictly better than the best so far and not equivalent to the last one scheduled, a challenger only when strictly better, and never one equal to the last one scheduled.", "quantifier": "all interleavings of report calls and callback completions, all callback results", "why_tests_cant": "All schedules.", "anchors": ["ade/report.py: Reporter.runCallbacks, newBest, waitForCallbacks"]}
{"id": "C46", "title": "A complaint loses the previous best", "statement": "When a callback complains about a newly reported best individual, the individual is blacklisted (its SSE becomes infinite and it ranks last) but the reporter's previous best is not restored, so a later, worse individual is announced as new best; only if it was announced while the callbacks for an earlier best were still running does that earlier one become best again.", "quantifier": "all individuals; existential witness for the loss, universal for the blacklisting", "why_tests_cant": "The universal part ranges over all states.", "anchors": ["ade/report.py: Reporter.runCallbacks, newBest", "ade/individual.py: Individual.blacklist"]}
{"id": "C47", "title": "Abort callbacks run exactly once, in order", "statement": "When the Enter key is pressed every callback registered with callOnAbort before runs exactly once in registration order, callbacks registered by running callbacks run too, and later key presses run nothing again; callbacks registered afterwards are scheduled to run once; shutting the keyboard down repeatedly is harmless.", "quantifier": "all sequences of registrations, key presses and shutdowns", "why_tests_cant": "Unbounded sequences.", "anchors": ["ade/abort.py: Keyboard, KeyboardHolder, callOnAbort, abortNow, shutdown"]}
{"id": "C48", "title": "Relation checks", "statement": "RelationsChecker accepts a parameter dict exactly when every specified pair satisfies |m*x+b-y| <= yMaxErr.", "quantifier": "all relation tables and parameter dicts (binary64)", "why_tests_cant": "All tables and values.", "anchors": ["ade/constraints.py: RelationsChecker.__call__"]}
{"id": "C49", "title": "Registered constraint methods see transformed parameters", "statement": "Checking values against a Constraints object succeeds exactly when each registered method whose parameters are all present accepts its dict and each appended function accepts the raw parameters, provided no parameter is declared linear in one method and logarithmic in another; without that proviso a method can be given an untransformed value, and collecting the checkers in a list first makes all of them call the last method, and (with methods only) gives every later combination the verdict on the first one.", "quantifier": "all registries, all parameter dicts, all methods", "why_tests_cant": "All registries.", "anchors": ["ade/constraints.py: Constraints.__iter__, append", "ade/population.py: ParameterManager.passesConstraints"]}
{"id": "C50", "title": "Specs dictionaries return what was stored", "statement": "After any sequence of stacked entries with prefix-free key paths, Specs.get(name, *keys) returns the value last stored under exactly those keys and an empty dict for keys never stored.", "quantifier": "all sequences of entries and keys", "why_tests_cant": "Unbounded sequences.", "anchors": ["ade/specs.py: DictStacker.add, Specs.get, dict_start, dict_add, dict_done"]}
{"id": "C51", "title": "Specs files parse as documented", "statement": "Reading the rendering of any list of attributes and dicts gives back exactly those attributes; blank and comment lines anywhere do not matter; a line of hyphens without a preceding name is rejected.", "quantifier": "all spec documents in the documented format", "why_tests_cant": "All documents.", "anchors": ["ade/specs.py: SpecsLoader.read, parseName, parseValue"]}
{"id": "C52", "title": "Extracting the examples never overwrites a file", "statement": "extract() leaves every existing file in the target directory unchanged, creates exactly the missing packaged files whose name starts with a lower case letter and has a listed extension (so README.txt is never restored), with the packaged contents, and running it again changes nothing.", "quantifier": "all directory contents", "why_tests_cant": "All initial directory states.", "anchors": ["ade/scripts/examples.py: extract", "ade/__init__.py: extract_examples"]}
{"id": "C53", "title": "Loading a population with new bounds", "statement": "Population.load yields a population that is runnable (running is not False), whose locks are free, and whose members, size, parameter settings and history equal the saved ones; with one new bound per parameter every loaded individual is put inside the new bounds, unchanged if it was inside. Evaluation counter, callbacks and best-reported individual are not kept, a moved individual keeps its old SSE, and the loaded population is not stopped on abort.", "quantifier": "all saved populations and all bounds", "why_tests_cant": "All states.", "anchors": ["ade/population.py: Population.load, save, __getstate__, __setstate__"]}
{"id": "C54", "title": "Log trimming keeps the best entry and respects the limits", "statement": "RowManager.trim keeps the best entry, as the last one, unless more than maxRows significant entries exist, in which case it keeps the worst maxRows of them and drops the best; it keeps at most maxRows entries (for maxRows at least 1) in order of improving SSE, and only entries within maxRatio of the best; an entry is dropped only if it is beyond maxRatio, beyond maxRows or not different enough from the next better kept one.", "quantifier": "all tables of SSEs and values", "why_tests_cant": "All tables.", "anchors": ["ade/scripts/lgg.py: RowManager.trim"]}
{"id": "C55", "title": "Name ranges expand inclusively", "statement": "A parameter argument 'x1-3' expands to x1, x2, x3 for every prefix and every pair of numbers, and to nothing when the range is reversed, provided the prefix does not end in a digit; letters likewise; other names are kept as given. On the lgg command line, however, such a range selects nothing.", "quantifier": "all names and numbers", "why_tests_cant": "All numbers.", "anchors": ["ade/scripts/lgg.py: RowManager.setupNames, addRange"]}
{"id": "C56", "title": "Initial values never use the whole Latin hypercube", "statement": "The candidates offered to an unconstrained population of size Np are the first Np-1 rows of one Latin hypercube followed by the first row of a fresh one: the last row of a hypercube is never used.", "quantifier": "all population sizes and hypercubes", "why_tests_cant": "All sizes.", "anchors": ["ade/population.py: Population.setup (refreshIV, getNextIV, getIndividual)"]}
{"id": "C57", "title": "A NaN evaluation is immortal", "statement": "An individual evaluated to NaN during setup is admitted to the population, and no challenger can ever replace it in its slot.", "quantifier": "all later executions", "why_tests_cant": "Unbounded executions.", "anchors": ["ade/population.py: Population.setup", "ade/de.py: DifferentialEvolution.challenge"]}
{"id": "C58", "title": "Constructor option resolution", "statement": "Each DifferentialEvolution option has the value of its keyword if the keyword is given, else of the class or instance attribute of that name, and the documented default if that value is None or missing (so a keyword given as None hides an attribute); a number CR is rejected exactly if it is below 0 or above 1 (so NaN is accepted).", "quantifier": "all keyword combinations", "why_tests_cant": "All combinations.", "anchors": ["ade/de.py: DifferentialEvolution.__init__"]}
{"id": "C59", "title": "lgg without parameters shows the starred ones", "statement": "Given no parameter names, lgg shows exactly the parameters with a star in one of the 4 entries of lowest SSE, sorted and each once, if all SSEs differ; with equal SSEs it can miss such a parameter and show one from a bad entry.", "quantifier": "all logs", "why_tests_cant": "All lists of entries and tie patterns.", "anchors": ["ade/scripts/lgg.py: Grepper.starredNames"]}
{"id": "C60", "title": "lgg shows entries of the log faithfully", "statement": "For given glob patterns lgg shows the names of the first entry that match one of them, and every row of its table is an entry of the log with that entry's SSE, values and stars under the right names; it fails exactly if the log has no entry or a shown name is missing in some entry.", "quantifier": "all logs and all patterns", "why_tests_cant": "All logs and patterns.", "anchors": ["ade/scripts/lgg.py: Grepper.__init__, globNames, load"]}
{"id": "C61", "title": "lgg table columns line up", "statement": "The heading and the values of each column end at the same character position in every line, if no text is wider than the column and no value has more stars than the space between columns.", "quantifier": "all names, texts and star counts", "why_tests_cant": "All tables.", "anchors": ["ade/scripts/lgg.py: Grepper.rj, makeLines"]}
{"id": "C62", "title": "The history's population records are the population", "statement": "Whatever sequence of initial additions, replacements, losing challengers and clears a population goes through, as long as its members at any time have different hashes and none is blacklisted in place, the records the history counts as in the population are, one for one, the members with finite SSE, with SSE and values rounded to single precision; and while there are fewer members than history rows, recording an individual cannot fail. Equal members, in-place blacklisting and assignment beyond the end break this.", "quantifier": "all sequences of operations, population sizes, hash functions and random draws", "why_tests_cant": "The link goes through a hash table and a row allocator whose state depends on the whole sequence of operations.", "anchors": ["ade/population.py: Population.__setitem__, setup, clear", "ade/history.py: History.add, notInPop, clear", "ade/de.py: DifferentialEvolution.challenge"]}
{"id": "C63", "title": "purgePop removes exactly the population's records", "statement": "On every reachable history, purgePop removes all records counted as in the population and no others, keeps the order and contents of the rest and the total count, and afterwards notInPop does nothing for any individual.", "quantifier": "all reachable histories", "why_tests_cant": "Any number of rows in any arrangement.", "anchors": ["ade/history.py: History.purgePop, purge"]}
{"id": "C64", "title": "A log is read back entry by entry", "statement": "Reading a log file always comes to an end. If the file consists of lines without 'SSE=' followed by a number, and of entries (a line with SSE=number, then name=value items with optional stars on that line and the following non-blank lines, in between any other words, ended by a blank line or the end of the file), then exactly the entries are delivered, in order, each with its SSE and with all its parameters, values and stars. In particular an individual logged by itself is read back completely however its text was wrapped, except that parameters whose names begin with an underscore are lost, an individual with infinite SSE is not read at all, and a parameter whose name ends in SSE can start an entry of its own.", "quantifier": "all files made of such lines, all names, values, wrappings and gaps, any float()", "why_tests_cant": "Arbitrary log files and wrappings; only a few sample logs exist.", "anchors": ["ade/scripts/lgg.py: Grepper.filerator, reSSE, reParam", "ade/individual.py: Individual.__repr__", "ade/population.py: ParameterManager.prettyValues"]}
{"id": "C65", "title": "Two individuals logged together are mixed up", "statement": "When two individuals are logged without a blank line between them, as the debug message of a new report does, reading the log delivers one entry which has the SSE of the first and the parameter values of the second.", "quantifier": "all pairs of individuals with the same parameters, all wrappings", "why_tests_cant": "The mix-up only shows when a log written with debug on is read back.", "anchors": ["ade/report.py: Reporter.newBest", "ade/scripts/lgg.py: Grepper.filerator"]}
{"id": "C66", "title": "The final population table is read back", "statement": "After the entries, the columns of the table following a 'Final population' line are delivered, from left to right: for each column its SSE and, for every row, the parameter with the value and stars of that column. For the text a population prints, this gives its best individual followed by all the listed individuals.", "quantifier": "all tables with at least one parameter and matching rows, all widths, any surrounding log", "why_tests_cant": "Tables of any size and contents.", "anchors": ["ade/scripts/lgg.py: Grepper.filerator", "ade/population.py: Population.__repr__, ParameterManager.stringValue"]}
{"id": "C67", "title": "Messages are written on lines of their own", "statement": "While messages go to one handle, a text of two or more characters is written exactly once, unchanged, followed by a line break and starting at the beginning of a line: a line break precedes it only if a progress character was left dangling. Two texts in succession are on consecutive lines. With formatting, up to two leading arguments (blank line for a number <= 0, indentation for a positive one, a rule for '-'), one value per brace pair and any number of trailing 0, -1 or '-' give one write of leading texts + formatted text + trailing texts, the latter in reverse order; values that happen to be 0, -1 or '-' are not mistaken for trailing arguments. A leading 0 writes an empty line and then what would be written without it, so 0 and -1 before a text of two or more characters give the same output. Refuted: the same for a one-character text, and lines starting at the beginning of a line when handles are switched.", "quantifier": "every history of calls on the handle, every text, value list, formatter and pattern of I/O failures", "why_tests_cant": "The line-break flag depends on everything written before; a test sees a few call sequences and a few argument shapes, while leading/trailing arguments and values can be combined without bound.", "anchors": ["ade/util.py:222-260", "ade/util.py:292-362"]}
{"id": "C68", "title": "Message handles are closed properly and failures are silent", "statement": "STDOUT is never closed. Any other handle is closed as soon as it is replaced, logging is stopped, or writing to it fails, and nothing is ever written to it afterwards. Setting a handle (or True, False, None) as the only argument writes nothing and returns the previous handle. While logging is off nothing is written and it stays off. Logging goes on as long as writing does not fail; if it fails logging is turned off and no exception is raised; whether a call raises depends on its arguments alone. Refuted: that the present handle is returned by a call with several arguments (after a leading 0 it is None).", "quantifier": "every history of calls, every pattern of I/O failures, every argument list", "why_tests_cant": "Failures can occur at any write or flush of any history; handles can be replaced, re-supplied after closing, or lost in any order.", "anchors": ["ade/util.py:222-279", "ade/util.py:292-362"]}
{"id": "C69", "title": "lineWritten never reports a line", "statement": "Refuted: lineWritten() returns True if a line was written since it was last called. It returns False after every history of calls, since the flag that is set when a line is written is not the one that is read; the reporter's progress character is therefore never re-emitted after callback output.", "quantifier": "every history of calls", "why_tests_cant": "A test can only show False for the histories it tries.", "anchors": ["ade/util.py:234", "ade/util.py:281-290", "ade/report.py:155", "ade/report.py:186"]}
{"id": "C70", "title": "An EvalTimer iterates by time of completion", "statement": "Iterating over an EvalTimer yields every part that was completed at least once, each exactly once, ordered by the mean of the times of day at which it was completed, parts with equal means in the order in which they were first completed; times of starting have no influence. Refuted: the documented order, fastest part first.", "quantifier": "every sequence of starts and completions, every set of part IDs and every finite non-negative time", "why_tests_cant": "Tests of an order by duration pass whenever the durations happen to be ordered like the times of completion.", "anchors": ["ade/util.py:125-192"]}
{"id": "C71", "title": "Pickling keeps an object's own public attributes", "statement": "An object with Picklable as base class and no slots has, after pickling and unpickling, exactly those of its own attributes whose names do not begin with an underscore and are not names of its class, with unchanged values. Refuted: that its visible attributes stay the same; an attribute that hides one of the class is replaced by the class's.", "quantifier": "all attribute names and values of object and class", "why_tests_cant": "Which attribute is lost depends on the names in the class; a round-trip test of one class says nothing of others.", "anchors": ["ade/util.py:78-98", "ade/examples/thermistor.py:162-192", "ade/examples/data.py:44-76"]}
{"id": "C72", "title": "The first image viewer that works is used", "statement": "An image viewer is run exactly if it exists and every existing one before it in the list wrote to its standard error; it gets its own base name, the options that have a place for the file name with that name put in, and the path of the file. That no viewer was found is said exactly if every existing one wrote to its standard error, unless complaints are off. Refuted: that the other options listed for a viewer are passed.", "quantifier": "all lists of viewers, all options and file names, all combinations of existing and failing programs", "why_tests_cant": "A test machine has one fixed set of programs.", "anchors": ["ade/image.py:56-59", "ade/image.py:137-165"]}
{"id": "C73", "title": "Each command to the executable gets its own answer", "statement": "In the goldstein-price example, once connected and as long as no more than two commands are unanswered at any time, every command to an executable gets the answer to its own arguments, in the order given, and each answer of the executable completes the next unanswered command. Refuted beyond that: of three or more commands given at once, the first gets its own answer and all others get the answer to the last one; two commands given before the connection is made both get the answer to the second. The pool assigns calls to executables in turn whether they are busy or not, so this does occur. Refuted: shutting down kills the executable; it never does.", "quantifier": "every sequence of commands, answers and shutdowns; every number of commands and executables", "why_tests_cant": "Which answer is mixed up depends on the interleaving of commands and answers; the results still look like valid function values.", "anchors": ["ade/examples/goldstein-price.py:58-116", "ade/examples/goldstein-price.py:154-191"]}
{"id": "C74", "title": "Thermistor parameters are grouped correctly", "statement": "The thermistor example has 28 parameters of different names: the four common ones, then four for each of six thermistors. The curve of thermistor k gets the four common ones followed by its own four, and the drift of each kind is taken over exactly that parameter of the six thermistors. Fewer values than that are an IndexError for the thermistors whose parameters are missing, and only for those.", "quantifier": "all lists of 28 values of any type, all thermistors and parameter kinds", "why_tests_cant": "An index error in one group only changes how well a curve can be fitted.", "anchors": ["ade/examples/thermistor.py:174-235", "ade/examples/thermistor.py:276-282"]}
{"id": "C75", "title": "Stopping an evaluation early does not change the verdict", "statement": "With a threshold, the thermistor evaluation gives exactly the full result if that does not exceed the threshold, and otherwise a value that exceeds the threshold too and is at most the full result, in floating-point arithmetic, for any non-negative residuals (infinite ones included) and finite drift penalties. Without a threshold the full result is given. Refuted: that a threshold of zero stops the evaluation; it counts as none.", "quantifier": "all lists of non-negative residual sums and penalties, all thresholds, NaN and infinities included", "why_tests_cant": "Rounding in each addition and multiplication could make a partial result exceed the full one for rare values.", "anchors": ["ade/examples/thermistor.py:256-287"]}
{"id": "C76", "title": "The battery curve uses its parameters by position", "statement": "Refuted: the voltage curve of the voc example is voc plus the sum of ak*exp(-(t+ck)/bk). For all parameter values the curve computed is voc + a1*exp(-(t+a3)/a2) + b1*exp(-(t+b3)/b2) + c1*exp(-(t+c3)/c2), since the parameters are passed in the order of their sorted names.", "quantifier": "all parameter values, times and exponential functions", "why_tests_cant": "A fit with permuted parameters still converges and looks plausible.", "anchors": ["ade/examples/voc.py:158-173", "ade/examples/voc.py:189-211"]}
{"id": "C77", "title": "A challenger's values are made as documented", "statement": "Each parameter of a challenger is the target's value where crossover takes it from the target, and otherwise base + (i0 - i1)*F in floating-point arithmetic, mirrored at a bound if it overshoots it; if i0 and i1 agree in the parameter or F is zero that is the base's value. The operators of Individual give a new individual without SSE, calculated position by position.", "quantifier": "all parents, bounds, F, CR and draws, all dimensions", "why_tests_cant": "Ranges over all doubles and all positions; a wrong operand only shows as slower convergence.", "anchors": ["ade/de.py:532-535", "ade/individual.py:224-242", "ade/population.py: ParameterManager.limit"]}
{"id": "C78", "title": "A parameter on which the population agrees never changes again", "statement": "If all members of the population have the same value of a parameter, then throughout the run, whatever is drawn, evaluated, shut down or aborted, all members keep that value and no challenger is ever evaluated with another one.", "quantifier": "all populations, executions (interleavings, failures, shutdowns), finite F, bounds and draws", "why_tests_cant": "An invariant of all executions of unbounded length, including rounding.", "anchors": ["ade/de.py:444-563", "ade/population.py: ParameterManager.limit"]}
{"id": "C79", "title": "Only parameter values that pass the constraints are evaluated", "statement": "Every challenger under evaluation passes all constraints, after having been limited to the bounds; if the first population passes them, every member of every later population does.", "quantifier": "all populations, constraint lists, executions and draws", "why_tests_cant": "An invariant of all executions of unbounded length.", "anchors": ["ade/de.py:532-563", "ade/population.py: ParameterManager.passesConstraints"]}
{"id": "C80", "title": "Each generation challenges every member once, in order", "statement": "In every run challenge number c (counted from 0 over the whole run) is for target c mod Np, and there are at most maxiter*Np challenges. No challenge of a generation is started before all challenges of all earlier generations have finished without an exception, however the evaluations overlap. If a challenge raises an exception, no further generation starts and the run ends as stopped.", "quantifier": "all populations, options, interleavings, failures, shutdowns and aborts, any number of generations", "why_tests_cant": "The order depends on which deferreds fire when; tests see a few schedules.", "anchors": ["ade/de.py:582-610", "ade/de.py:464-563"]}
{"id": "C81", "title": "In a whole run no slot and not the best individual ever gets worse", "statement": "From any point of a run to any later point, every slot keeps its individual or gets one of strictly lower SSE, and for every member with an SSE there is later a member at least as good. This needs no assumption on how challenges are started: it is proved that the generation loop never starts a challenge for a target that still has an unfinished one.", "quantifier": "all runs (interleavings, failures, shutdowns, aborts) over all populations", "why_tests_cant": "An invariant of all executions of the loop together with the locks; tests sample schedules.", "anchors": ["ade/de.py:582-610", "ade/de.py:464-563", "ade/population.py:1126-1169"]}
{"id": "C82", "title": "A run is the textbook algorithm", "statement": "At the start of every generation, and at the end of a run that was not stopped, the population is exactly what the run's challenges would have left performed one after the other, each complete before the next; one generation is one pass over targets 0 to Np-1 starting from the population of the generation before; a run that reaches maxiter has made exactly maxiter such passes and left no challenge unfinished.", "quantifier": "all runs without an abort of the population, all interleavings of evaluations", "why_tests_cant": "Equality of final populations over all interleavings of unboundedly many overlapping challenges.", "anchors": ["ade/de.py:464-638"]}
{"id": "C83", "title": "The outcome of a run is decided by its generations alone", "statement": "For every complete run there is a sequence of generation outcomes for which the generation loop taken by itself (with FManager, replacement score, dwell count and callbacks) gives exactly the same events, the same final state and the same reason for ending; every generation but the last had all its challenges finish undisturbed. A run that ends as stopped has its running flag cleared. So what is proved of the loop by itself (C25, C26) holds of whole runs.", "quantifier": "all runs, options, FManager states and scores", "why_tests_cant": "Relates two views of unboundedly long executions.", "anchors": ["ade/de.py:565-638"]}
{"id": "C84", "title": "A run always ends", "statement": "If evaluations finish, a run (also one in which a challenge raised an exception) that has not ended can always take a step, and the number of its steps is bounded by maxiter*(Np*(Np+10)+3)+2 plus Np for each abort of the population; so every run ends, whatever the order of events and whenever shutdown or abort is called.", "quantifier": "all runs over populations of at least four, all options and schedules", "why_tests_cant": "Deadlocks and endless loops show only under rare orders of events; the bound holds for all of them.", "anchors": ["ade/de.py:464-638", "ade/population.py:712-728", "ade/population.py:1126-1169"]}
{"id": "C85", "title": "What a finished run leaves behind stays", "statement": "Once a run has ended, for whatever reason, nothing that still happens (evaluations that were in flight, shutdown or abort calls, lock releases) changes the population, and the run stays ended; if it ended without an exception its running flag is cleared. A run that ends with an exception is still marked as running (refutation).", "quantifier": "all runs and all continuations after their end", "why_tests_cant": "Evaluations finishing after the end of a stopped run depend on timing; every order has to be covered.", "anchors": ["ade/de.py:423-442", "ade/de.py:464-638"]}
{"id": "C86", "title": "Progress symbols never make a line longer than 120 characters", "statement": "Whatever messages come in between and whether or not the handle fails, no line on a handle exceeds 120 characters if no message has such a line; a call without a symbol always leaves the output at the beginning of a line. Symbols alone fill lines of exactly 120, in order, none lost. The count is not reset by other messages, so a line after a message may be broken early, and a message after a full line comes after a blank one (refutations).", "quantifier": "all sequences of progress symbols, resets and messages, all I/O failures", "why_tests_cant": "The line breaks depend on the whole history of symbols and messages; tests try a few.", "anchors": ["ade/report.py:352-370", "ade/population.py:74"]}
{"id": "C87", "title": "An individual is a consistent mapping of its parameters", "statement": "With different names, params has the parameter names as keys in order, each with the value read by that name; it is the dict given to constraints. Reading fails for exactly the indices outside the array (IndexError) and unknown names (ValueError, never KeyError). A value written by index, also one counted from the end, is what index and name read; all others stay. Values cannot be written by name, and with duplicate names params and reading by name disagree (refutations).", "quantifier": "all names, values, keys and indices of either sign", "why_tests_cant": "Needs all keys and lengths; aliasing of front and end indices is easily missed.", "anchors": ["ade/individual.py:102-111", "ade/individual.py:153-173"]}
{"id": "C88", "title": "Individuals share no values unless an array is handed over", "statement": "In every sequence of creating, copying, adding, subtracting, multiplying, writing, updating and limiting individuals that hands over no array itself, an operation changes only the individual it is meant for; making a challenger from base, difference and parent values changes none of them; a copy keeps the values it was made with. Spawning from, or updating with, another individual's array shares it (refutations).", "quantifier": "all sequences of operations on any number of individuals", "why_tests_cant": "Aliasing shows only in particular orders of operations; the heap has to be considered for all.", "anchors": ["ade/individual.py:68-76", "ade/individual.py:130-144", "ade/individual.py:162-166", "ade/individual.py:224-266", "ade/population.py:688-700"]}
{"id": "C89", "title": "Slots of the population are locked first come, first served", "statement": "lock() of different valid indices acquires every free slot, queues at the end for every other one, touches nothing else, and fires at once exactly if all were free. release() hands each slot to the one waiting longest or frees it. Locking free slots and releasing them changes nothing; while shutting down nothing is acquired; a repeated index is refused. Refuted: that a refused request leaves no lock behind, that a request for free slots fires (the same slot by a negative index waits for itself), that an index too large affects no lock of others, that releasing no slot releases none.", "quantifier": "all lock states, requesters, index lists, shutdown states", "why_tests_cant": "Queue order and leaked locks depend on the state of all locks and arbitrary index lists.", "anchors": ["ade/population.py:1126-1169"]}
{"id": "C90", "title": "The population gives its individuals as asked", "statement": "individuals() with valid indices of either sign gives what is at those places in the order asked, by itself if one was asked for and as a list otherwise; an index beyond the end makes the answer None; evalTimes has exactly the recorded evaluation times in order; an individual is in the population if it is a member or equal to one. A copy of a member is not always in it: with an SSE of NaN it is equal to nothing (refutation).", "quantifier": "all populations and index lists", "why_tests_cant": "All index combinations and all float values including NaN.", "anchors": ["ade/population.py:565-569", "ade/population.py:1115-1124", "ade/population.py:1178-1187"]}
{"id": "C91", "title": "Plots of values against SSE show the right parameter of the right individuals", "statement": "No arguments select all parameter names sorted, names select those, one to three integers select the slice of the sorted names; an integer among names is refused. value_vs_SSE gives the SSEs of the selected individuals and for each name that parameter's values of the same individuals in the same order; plot makes one subplot per name with that name as title and one series for each class of individuals. A slice without names raises an exception instead of giving no subplots (refutation).", "quantifier": "all histories, names, selections and argument lists", "why_tests_cant": "A shifted column or an order differing between SSEs and values shows only on suitable data; all histories are covered.", "anchors": ["ade/history.py:171-187", "ade/history.py:203-240", "ade/history.py:361-443"]}
{"id": "C92", "title": "The image viewer is started at most once and never beside a running one", "statement": "In every sequence of file notifications, process ends, terminations and shutdowns, spawnViewer runs at most once, no program of its list is started twice, and none while the process of the PID file exists. The first program that exists is started; if it ends with an error message the next one is. The PID file names the process started last, and only processes started by the viewer are ended. Refuted: that removing the image ends the viewer (the branch for it is unreachable, the notifier having been stopped), and that a viewer is started later if none was there at first.", "quantifier": "all sequences of events, all answers of the operating system", "why_tests_cant": "Depends on the order of file-system and process events; the unreachable branch cannot be seen by testing the branch.", "anchors": ["ade/image.py:37-171"]}
{"id": "C93", "title": "The line fit weights individuals by their SSE", "statement": "For finite positive SSEs (binary32 numbers, twice the lowest not overflowing) every weight is from 0 to 1, the individual with the lowest SSE has weight 1, and a higher SSE never has a higher weight. An SSE at least c times the lowest has a weight within relative 1/c (plus rounding) of 2*lowest/SSE, so one with many times the lowest SSE has little influence. With a perfect SSE of zero the best individual's weight is NaN (refutation).", "quantifier": "all lists of positive finite SSEs", "why_tests_cant": "A real inequality with two roundings to binary32; tests cannot cover all float magnitudes.", "anchors": ["ade/history.py:242-256"]}
{"id": "C94", "title": "Scatter plots show the named parameters, the best individuals biggest", "statement": "plotXY of two names returns those names as labels and the slope and intercept of the weighted fit to the better half of the individuals; the line spans exactly the x range of that half. Five classes of individuals are drawn in decreasing size, each the values of the two named parameters of a contiguous run of the ranking, the first class starting at the best one and the ends at about 5, 10, 20, 50 and 70 percent of the individuals. Not every individual is drawn: the worst 30 percent have marker size 0 (refutation).", "quantifier": "all histories, names and numbers of individuals below 2^50, any fit routine", "why_tests_cant": "Off-by-one errors in class limits depend on float rounding of fraction times number for all numbers.", "anchors": ["ade/history.py:92-101", "ade/history.py:448-493"]}
{"id": "C95", "title": "Figures have the size asked for", "statement": "Dimensions W or WxH are pixels divided by the DPI, none give a width of 12 inches, three or more numbers are refused. With a file path set, every figure goes to the next file and has width and height given with the path; without a height it is the width times the smaller of 0.7 and rows over columns. Without one, a window has the dimensions given by dims, otherwise by width and height. The keyword dims of a plot to a file has no effect though it is documented to (refutation).", "quantifier": "all dimension strings, sequences of plots, row and column counts, any float parser", "why_tests_cant": "State kept between plots and all combinations of keywords.", "anchors": ["ade/history.py:274-359"]}
{"id": "C96", "title": "Command line options have the value given last or their default", "statement": "For accepted option declarations and an accepted command line, an option with default has the last value given (converted to the default's type) or else the default, a flag tells whether it was given, any other letter gives None; an attribute once read never changes. With declared positional arguments the object is the sequence of them (length, iteration, truth, items). The first paragraph of the description text is the description, the others the epilog, indentation removed. A help text gets the default in brackets unless it mentions a default, and {} is replaced by the letter. A callable runs only from a script without -h. Refutations: without declared positional arguments the length is a TypeError instead of zero; options declared after the first read are None; a bool option cannot be set to False; two blank lines make an empty paragraph.", "quantifier": "all declaration sequences, command lines, type conversions and description texts", "why_tests_cant": "Order of declarations, reads and repeated options cannot be enumerated.", "anchors": ["ade/args.py:36-130"]}
{"id": "C97", "title": "The pv script draws the figures asked for and shows the last one", "statement": "Without a file nothing is loaded or drawn. With a file of at least two parameters the path is set first if given, then values are plotted if a ratio is given, then the strongest correlations of each named parameter, or of all if none is named, are plotted with at most N pairs each; the last figure is shown, and nothing to draw is an error. With an unknown parameter and a ratio the run fails. Refutations: a ratio does not ensure that a figure is shown (a single parameter with the default N ends in an error); an unknown parameter without ratio shows an empty figure.", "quantifier": "all argument combinations, files, parameter names and histories", "why_tests_cant": "Combinations of six options with any number of parameters.", "anchors": ["ade/scripts/pv.py:89-119"]}
{"id": "C98", "title": "Time series of the examples are sorted and restricted to ranges", "statement": "load keeps exactly the non-comment included rows in order; an empty row is an IndexError. parseValues sorts the readings by time (equal times stay in file order) and keeps exactly the readings whose place in that order is in one of the ranges, once each although in several ranges, all without ranges; t is time minus the earliest time, also if the earliest reading is not kept. For finite times t is non-negative and never decreases; without ranges it starts at zero. Refutations: on python 3 no file with rows can be read and no values can be parsed; a file without readings is an IndexError.", "quantifier": "all rows, ranges, text to float conversions and row filters", "why_tests_cant": "Any number of overlapping ranges and any order of readings with ties.", "anchors": ["ade/examples/data.py:79-162"]}
{"id": "C99", "title": "Weights of temperature readings are bounded", "statement": "For finite readings and times of magnitude up to 2^1000, times strictly increasing, there is one weight per reading; none is NaN or negative; the first is zero; weights are at most 1 for readings from 4 degrees up, at most 10 from -5 degrees up, at most 30 below. The weight is the cube of a ratio that is at least one half for drifts up to 0.005 and at most one half from there. Two equal readings at equal times give a weight of NaN (refutation).", "quantifier": "all float readings and times in that range, any cube routine mapping 0..1 into 0..1", "why_tests_cant": "Overflow of the drift and rounding of the ratio depend on float magnitudes that no test list covers.", "anchors": ["ade/examples/thermistor.py:80-104"]}
{"id": "C100", "title": "The ventilation fan is wanted only when it would cool", "statement": "decideFan is true only if the outside temperature is below the inside one and the inside one is at least 10 degrees, the inside one being raised by one degree while the fan runs; never with a NaN. A colder outside or a warmer inside never makes it false. What makes a resting fan run keeps it running. From 45 degrees on it is exactly outside < inside. Below, the inside must exceed the outside by 3.5*(45-inside)/25 degrees; a picodegree away from that margin the result is the exact one in spite of rounding.", "quantifier": "all binary64 temperatures including infinities and NaN, both fan states", "why_tests_cant": "Hysteresis and monotonicity relate pairs of calls over all doubles; rounding decides near the margin.", "anchors": ["doc/ade-thermistor-usage.py:194-223"]}
{"id": "C101", "title": "The fan is never switched twice within 300 seconds", "statement": "Whatever the sensors say and whenever rounds happen, the first write to the GPIO is off, of two consecutive writes the later one is the opposite of the earlier one and at least 300 seconds later, and what the controller remembers is the last write. The fan is switched on only with a log row whose inside temperature is above the outside one and at least 10. With a sensor offline 300 seconds after the last switching the fan is off and stays off. A log row tells the state of the fan after it, which is the decision for its temperatures unless the last switching is less than 300 seconds ago. There is one row per 300 samples, its temperatures being the means of those of the 300 samples. Refutation: the fan may be left on when the loop ends.", "quantifier": "all sequences of rounds, sensor states, voltages and times, all filter coefficients and logarithm routines", "why_tests_cant": "Unbounded sequences of sensor failures, readings and times.", "anchors": ["doc/ade-thermistor-usage.py:160-192", "doc/ade-thermistor-usage.py:225-255"]}
{"id": "C102", "title": "The voltage filter settles, and never recovers from NaN", "statement": "In exact arithmetic no output of the filter is above the highest sample or, up to the factor 1-a^(N_settle+1), below the lowest; a constant sample x comes out as x*(1-a^k) with k more than N_settle; after a change to x the distance of the output from x shrinks by the factor a at each sample. In floats a higher voltage never gives a lower temperature. Refutation of recovery: after one NaN voltage the fan is never switched on again.", "quantifier": "all real samples and coefficients; all voltages from 0 to 23; all later rounds", "why_tests_cant": "Unbounded sample sequences; poisoning lasts for ever.", "anchors": ["doc/ade-thermistor-usage.py:57-78", "doc/ade-thermistor-usage.py:122-144"]}
{"id": "C103", "title": "Waiting for reports means history and callbacks are done", "statement": "The Deferred of waitForReports has fired exactly when the population was not running at the call, or when every history update requested before the call has ended and given the lock back and the run of report callbacks in progress at the call (if any) has ended or was given up by an abort. The history is always the result of the updates that have ended, applied one after the other in the order of their requests, so a fired wait means that all earlier updates are in it. Unless an earlier update keeps the lock, a wait fires after as many ends as there are updates outstanding. Refuted: once an update has failed to give the lock back (e.g. a member with a finite SSE beyond single precision), no wait of the running population ever fires, not even after an abort, so a DE run hangs.", "quantifier": "all sequences of requests, ends, waits, report runs and aborts, in any interleaving; any history size", "why_tests_cant": "It quantifies over all interleavings of updates and reports; a hang can only be shown by reasoning about all continuations.", "anchors": ["ade/population.py: Population.waitForReports, abort", "ade/history.py: History.shutdown, add, notInPop", "ade/report.py: Reporter.waitForCallbacks, runCallbacks, abort", "ade/de.py: DifferentialEvolution._run"]}
{"id": "C104", "title": "A run records its evaluations in the history, whatever the order", "statement": "While a DE run goes on, the history is changed only as a consequence of evaluations that end: a challenger better than its target becomes the member at that slot and is recorded as a member after its predecessor was released, a challenger that is not better is recorded as never in the population unless evaluations are cut short (xSSE), a failed evaluation or one ending after the shutdown leaves no trace. Once the updates waiting for the history's lock have been made, population and history are what these consequences, in the order in which the evaluations ended, make of the first population; the population records are one for one the members with finite SSE, and N_total has grown by exactly the number of recorded finite evaluations. If the population is smaller than the history's capacity and all SSEs are within the range of single precision, the lock is always given back. Refuted: a losing challenger with a finite SSE beyond that range ends its challenge with an exception and keeps the lock, and every other losing challenge then waits forever.", "quantifier": "all interleavings of challenges, evaluations, history updates, shutdown and abort; any population, hash function, challengers and evaluation results", "why_tests_cant": "It quantifies over all interleavings of concurrent challenges with the queue of history updates; a test sees one schedule, and waiting forever cannot be tested.", "anchors": ["ade/de.py: DifferentialEvolution.challenge", "ade/population.py: Population.__setitem__", "ade/history.py: History.add, notInPop"]}
{"id": "C105", "title": "A full history drops one record of a closest pair", "statement": "When a record is added to a full history, the record dropped is one of two records outside the population such that no other two of them (no other pair of the random sample, with 142 or more of them) are at a smaller distance. The distance is the sum of the squared differences of SSE and values, each divided by the variance of its column plus 1E-20, divided by the mean SSE of the two, and divided once more for a first record never in the population. With finite rows and positive SSEs all distances are numbers not below zero; if two records are equal, the pair chosen is at distance zero; of two pairs with equal sums the one with higher SSEs is the closer one. A pair whose distance is NaN goes first. Refuted: the worse record of the pair is dropped (it is that in the lower row, whatever the SSEs), and the penalty of records never in the population grows when they outnumber the others (with four or more rows it is 1+exp(-4.8) always).", "quantifier": "all sets of rows, contents, variances, orders of summation and random draws; any reachable full history", "why_tests_cant": "Ties, NaNs, overflows and the sampled pairs depend on the rows, on numpy's order of summation and on random draws; that a penalty never changes is a statement on all sets of rows.", "anchors": ["ade/history.py: ClosestPairFinder.calcerator, __call__", "ade/history.py: History.add"]}
{"id": "C106", "title": "Adaptation of F during a run, whatever the timing of evaluations", "statement": "While a generation runs, every challenger is made with the F range and CR of the generation's start, however the evaluations interleave; these change only between generations, each time by one scaling step up or down, and F never leaves the range given by the user. The reports of a generation are, in some order, those of its challenges performed one after the other, and the score is what they add up to in the order in which they came in. When in each generation at most one challenger beats the best reported before and every successful challenge has a ratio of at least one, the population, F range, score and best after any number of generations are those of the sequential run, so two runs with the same draws agree. Refuted: that timing never matters. A new best individual counts once more, so the order in which two records are reported changes the score: two runs with the same challengers, SSEs and draws, in which only two evaluations end in a different order, scale F in opposite directions. With ratios of zero even the rounding of the sum depends on the order.", "quantifier": "all populations, schedules, orders of completion, SSEs, random draws, F ranges and numbers of generations", "why_tests_cant": "The number of orders in which evaluations can complete grows factorially with the population; a test runs one of them, with a fixed seed, and cannot show that no other order gives another result.", "anchors": ["ade/de.py: DifferentialEvolution._run, challenge", "ade/report.py: Reporter.__call__, fileReport", "ade/population.py: Population.replacement, report", "ade/de.py: FManager"]}
{"id": "C107", "title": "The Goldstein-Price example's pool of executables", "statement": "The pool deals calls to its N executables in turn, whether busy or not, and keeps none waiting. Calls made all at once are all answered, but only the first one of each executable and the last one get their own value; the ones between get the value of the last, so all values are right just when there are at most 2N calls. Kept to two unanswered calls per executable, every call gets its own value in any order of events. Shutting the pool down fires at once, stops no executable, and calls made afterwards are never answered; a second shutdown never fires. Each call with None, as made after an abort, takes one executable out of the pool: then a shutdown never fires, and after N of them no call is answered. Refuted: that a call goes to the next free executable, and that shutdown fires when all have stopped.", "quantifier": "all numbers of executables, calls, and interleavings of calls, answers and shutdowns", "why_tests_cant": "Which value a call gets depends on the number of executables (one per core) and on how calls and answers interleave; that something never fires cannot be observed in finite time.", "anchors": ["ade/examples/goldstein-price.py: MultiRunner.__call__, shutdown", "ade/examples/goldstein-price.py: Runner.shutdown", "ade/examples/goldstein-price.py: ExecProtocol"]}
{"id": "C108", "title": "The curves and evaluators of the thermistor and battery examples", "statement": "With all parameters within the example's bounds, a thermistor's modelled temperature is a finite number not below absolute zero that never rises with the resistance, and it agrees, up to a relative rounding error of 2**-47, with 1/(A*a + B*b*ln R + C*c*ln(R)**2 + D*d*ln(R)**3) - 273.15. With weights from 0 to 32 and resistances of an ohm or more the evaluator's SSE is never NaN and never negative; a threshold SSE never changes the answer to whether the threshold is exceeded, nor the SSE itself if it is not. Parameters that fit every reading exactly have an SSE of zero, whatever their drift. The battery example's modelled voltage never rises with time and never falls below the open-circuit voltage, and its SSE is never NaN or negative as long as the three values used as time constants are positive. Refuted: that this holds throughout the battery example's bounds (a2 = a3 = 0 gives 0/0 at the first reading, since the sorted parameter names pass a2 as a time constant), and that the thermistor's SSE is a number for every data file (one negative resistance makes all SSEs NaN).", "quantifier": "all parameter values, readings and numbers of readings, summation orders, and functions log, exp and cube within the stated accuracy; binary64", "why_tests_cant": "A continuum of parameter values and readings, and rounding at each step; a few fits would neither show monotonicity nor meet the corner of the bounds that gives NaN.", "anchors": ["ade/examples/thermistor.py: Evaluator.curve, __call__", "ade/examples/voc.py: Evaluator.curve, __call__, setup"]}
{"id": "C109", "title": "Lines of pretty-printed values", "statement": "Pretty-printed values come in lines of one to 120 characters that have all visible characters of the text in order. Parts (SSE=..., name=value with stars) that are no longer than a line are never broken, and each line has as many of the next parts as fit. An individual none of whose parts is longer than a line is read back from its log entry by lgg: its SSE, and the values and stars of all names that do not begin with an underscore. Refuted: that the lines of an individual in the log have at most 120 characters (its brackets are not counted, so there can be 122), and that every individual can be read back (a name too long for a line is cut, and its value is read under the rest of the name).", "quantifier": "all texts, numbers of parameters, names, values, and line widths above zero", "why_tests_cant": "Where lines break depends on the lengths of all names and formatted values; the existing tests have a few short names, which are never broken.", "anchors": ["ade/population.py: ParameterManager.prettyValues, fill, maxLineLength", "ade/individual.py: Individual.__repr__", "ade/scripts/lgg.py: Grepper.filerator"]}
{"id": "C110", "title": "Complaints about individuals during a run", "statement": "When report callbacks complain about individuals during a DE run, which changes those individuals in place, only the outcomes of comparisons change: every generation still challenges each member once in order, the run still ends, and members stay in bounds. An individual in a slot is only ever lost to a better one, or to a complaint about itself or about a better one that took its place. Hence, if no initial SSE is NaN, for every evaluation that ended while the run was on there is at any later time a member, or a former one complained about, that is at least as good; without complaints the best member at the end is at least as good as every individual evaluated. A complaint concerns one individual: the members are distinct objects, and one still being evaluated is none of them, no other challenge's, not complained about, and the same object afterwards. A member complained about is replaced by the next challenger of its slot with a finite SSE. Refuted: that it never wins a challenge again (it does against an infinite SSE) or is no longer the basis of new individuals, as the comment in the code says; that the best individual nobody complained about is kept (a complaint about its successor loses both); and that the best evaluation is kept when a member's SSE is NaN.", "quantifier": "all populations, schedules, evaluation results, constraints, random draws and all sequences of complaints at any time", "why_tests_cant": "When a complaint takes effect depends on how callbacks and evaluations interleave; that nothing good is lost is a statement on all later states of all runs.", "anchors": ["ade/report.py: Reporter.runCallbacks", "ade/individual.py: Individual.blacklist, __lt__", "ade/de.py: DifferentialEvolution.challenge, _run"]}
{"id": "C111", "title": "From setup to the end of a run", "statement": "When a population whose setup has fired with True goes into a DE run, then at any time of the run every member came from setup or has won a challenge, its values are within bounds, the constraints have accepted them (for a member from setup: before they were limited to the bounds), and its SSE is what the evaluation function returned for exactly these values, unless a callback has complained about it. If the function never returns NaN and nobody complains, one member's values have an SSE that is at most that of all values delivered by setup and of all values tried in the run so far. Refuted: that the best individual evaluated in setup is delivered: evaluations that end when the population already has its Np members come to nothing, although they were reported.", "quantifier": "all bounds, constraints, evaluation functions, random draws, orders in which evaluations end in setup and in the run, and numbers of generations", "why_tests_cant": "It joins two asynchronous phases with unbounded schedules; a test sees a few fits with a fixed number of processes, and a lost better individual leaves no trace in the result.", "anchors": ["ade/population.py: Population.setup", "ade/de.py: DifferentialEvolution.__call__, _run, challenge", "ade/individual.py: Individual.evaluate"]}
{"id": "C112", "title": "lgg as a program", "statement": "The lgg script reads the file named by its first argument if that has a dot, else pfinder.log in the home directory, and comes to an end whatever is in it; without the file it says so. For a log of entries without a population table, and with patterns, it prints a heading with the matched names of the first entry in sorted order, then one to 40 lines, each with the SSE, values and stars of an entry of the log; as long as fewer than 40 lines are shown or there are at most 40 entries, the last line is for an entry with the lowest SSE. It does so exactly if every entry has a number under every such name: otherwise it prints no table and enters the debugger. Without patterns the names are those with a star in one of the four entries with the lowest SSEs. A log without entries ends in an exception. From the log of a run that reports ever better SSEs, as the Goldstein-Price example does, the last line shows the last report. One line with 'SSE=' and something that looks like but is not a number, and nothing of the rest of the log is shown. What cannot be read in the file ends the program with that error if there are no patterns or no entry before it, else an error shows in the debugger.", "quantifier": "all log files, arguments, glob functions, number formats, parameter names and values, and numbers of entries", "why_tests_cant": "The logs a user has are unbounded in length and content; the package has no tests of the script, and a table that is wrong for a rare log looks like any other table.", "anchors": ["ade/scripts/lgg.py: main, Grepper.__init__, load, __call__, makeLines, rj", "ade/examples/goldstein-price.py: Solver.report"]}
{"id": "C113", "title": "The last individual shown is the best one", "statement": "In a DE run together with its reporter and any callbacks, the report callbacks' complaints are the only changes to individuals in place. When the run comes to its regular end (not aborted, no error in a complaint's handling, no complaint during the final report), the last individual shown to every callback is a member of the final population with the lowest SSE, or equal to one. If there was no complaint at all, no SSE to start with is NaN and at least one member exists, that individual is at least as good as every initial member and every challenger evaluated. After the end nothing more is shown, and neither members nor SSEs change. At any time of a run without complaints and aborts, the best individual that the reporter knows is at least as good as every member. A challenger that lost and whose SSE is being recorded has not been shown to any callback yet. Refuted: the same with a complaint during the final report: the individual shown last is then struck off, and the best one left was never shown; and that only individuals that were members at some time are shown: after a complaint the next challenger is shown as the best although it lost.", "quantifier": "all populations, numbers of callbacks, schedules of evaluations, callbacks and complaints, evaluation results, orders of equal SSEs and random draws, and all histories of the reporter before the run", "why_tests_cant": "Reports run beside the evaluations and may skip individuals, so what is shown last depends on the whole schedule; tests have immediate callbacks only.", "anchors": ["ade/de.py: DifferentialEvolution.challenge, _run, __call__", "ade/report.py: Reporter.__call__, newBest, runCallbacks", "ade/population.py: Population.report, best"]}
{"id": "C114", "title": "Fitting in several goes", "statement": "A population is run by one DE object after the other, saved and loaded at any time in between (also during a run), with or without new bounds. Its numbers of members and parameters and its constraints stay as they are. Without complaints and NaNs, no member's place ever gets a worse SSE, so at the end one member is at least as good as every first one and everything evaluated in any of the runs while it was on. With the same evaluation function and no new bounds, each SSE is what the function gives for the values, or infinity after a complaint. With bounds given for each parameter, members are always within the bounds of the time. A population that was aborted is not run any more; loaded from its file it is. After loading, F is never lowered after the first generation. A population is stopped after a run exactly if it was before or was aborted during it. Once a run is over none of its evaluations is under way or will be, and the members keep their values. The options, parameter names and, without new bounds, the bounds stay; the history is the one the last run left, also when saved and loaded. Without new bounds each member has values from the beginning or such as pass the constraints. Refuted: that members which pass the constraints go on doing so with new bounds; that the best individual's SSE is what the function gives for its values when bounds are changed (the individuals are moved, their SSEs stay, and no challenger within the bounds need do as well); that a new run on the same population begins as the first did (it has the score the last one left).", "quantifier": "all sequences of runs, saves and loads, populations, bounds, evaluation functions, schedules, random draws, and all times at which a run is left", "why_tests_cant": "What goes wrong appears only after several sessions, each with its own schedule; the package's tests load a population but never go on with it.", "anchors": ["ade/population.py: Population.load, save, __getstate__, __setstate__, abort, replacement", "ade/de.py: DifferentialEvolution.__call__, _run"]}
{"id": "C115", "title": "The example programs", "statement": "What the thermistor and the battery example do as programs. With -h nothing; otherwise first the worker processes, as many as -N says or one less than there are cores, and the place of the messages. The program stops the reactor, as the last thing it does, exactly if every part of it succeeds, F is given as at least two numbers (unless the population has been aborted) and CR is within 0 and 1; if not, the last thing is that an error is printed. The workers are shut down exactly if everything up to the end of DE's run went well, and the population is then saved in the thermistor example if the name has more than one character. The population is as large as -p says per parameter, and in the thermistor example counts as converged at a target fraction of 0.005; DE gets the options as given, each once; the pieces of -F are what stands between its commas. The queue gets every evaluation asked for, in order and unchanged, until the first shutdown is done, and nothing after that; evaluations are then answered with None, and further shutdowns do nothing. Any shutdown asked for that is done has this effect. The third example stops exactly if all its parts succeed. Refuted: repeated shutdowns have no effect, and evaluations no longer reach the queue, also before the first shutdown is done; there is always a worker; -u makes the population uniform; the program ends or shuts its workers down if its parts succeed and F is made of numbers; DE runs only if the population was set up without an error.", "quantifier": "all options and environments (success or failure of each part, any float()), all sequences of evaluations, shutdowns and their ends", "why_tests_cant": "The examples are scripts without tests: they need worker processes, a running reactor and data from the network, and what happens on errors needs every part to fail in turn.", "anchors": ["ade/examples/thermistor.py:Runner", "ade/examples/voc.py:Runner", "ade/examples/goldstein-price.py:Solver"]}
{"id": "C116", "title": "Reports of the example programs", "statement": "What the thermistor and battery examples' reporters show of a new best. First one message, with the SSE and the values, whatever happens next. The thermistor reporter (readings finite and not beyond 2^40, 28 values) shows six plots in order, each with its thermistor's number, all readings as (resistance, temperature), and 200 points of the curve of the common and its own parameters, from left of every reading to right of every reading, in ascending order; if the readings are eleven Ohms or more and the parameters within the bounds, the curve is finite and never rises. The battery reporter (three readings or more) shows all observations, their residuals in order, the value of the parameter voc as line and text, and 200 points of the curve from the earliest time to three times the latest, past all observations; with proper parameters the curve never rises and stays above voc. Refuted: the drawn curve always consists of numbers (a reading below ten Ohms makes it begin below zero Ohms); the battery reporter works with any readings (with one or two it raises ValueError in looking for a residual it does not use); an empty data set.", "quantifier": "all readings, parameter values, SSEs, counters and text formats; log and exp any functions with the stated range and monotonicity", "why_tests_cant": "The reporters draw with a plotting library into image files and have no tests; the ends of the curve depend on rounding, which a picture does not show.", "anchors": ["ade/examples/thermistor.py:Reporter.__call__", "ade/examples/voc.py:Reporter.__call__"]}
{"id": "C117", "title": "Which constraints a parameter manager enforces", "statement": "With any number of parameter managers, and constraints given as one callable, a list, a tuple or an iterator. After setConstraints (of the manager or its population) exactly the arguments are asked, in their order, whatever is done with other managers and lists; something not callable is refused with ValueError and changes nothing. The answer is true exactly if all accept, false if one rejects that comes before any that raises, else that exception. A manager constructed with one callable or a tuple behaves likewise; one constructed with a list asks what the list has at the time, so that a constraint appended later by anybody is enforced from then on; one constructed without constraints accepts everything unless somebody appends to some manager's attribute. Only a list can be appended to, a tuple or an iterator raises AttributeError. Checks change nothing, except that an iterator is used up: once values have passed, everything passes. Refuted: appending to one manager's attribute leaves other managers alone (the default list is shared by all); asking twice gives the same answer (iterators); what the constructor has not refused can be called (it checks nothing, and the first check raises TypeError).", "quantifier": "all sequences of constructions, setConstraints, appends and checks on any number of managers, lists and iterators, all constraints (which may raise) and all values", "why_tests_cant": "Sharing shows only when several managers and lists are used in certain orders; no test constructs two managers and changes one.", "anchors": ["ade/population.py: ParameterManager.__init__, setConstraints, passesConstraints", "ade/population.py: Population.setConstraints", "ade/util.py: notseq"]}
{"id": "C118", "title": "Constraints changed during a run", "statement": "Population.setConstraints may be called at any time during a run, any number of times. Changing constraints changes which candidates are accepted and nothing else: the run is one in which each challenge has constraints of its own, those in force when it looked at them. So targets come in turn, the same bound on the number of events holds and with four or more individuals an unfinished run can always go on, whatever is set. A run that ends without having been stopped or aborted leaves what its challenges leave one after the other, each with its own constraints; slots never get worse and members stay in bounds. The constraints in force are those the run began with until a call with callables only. Every member was there when the run began or satisfied constraints in force at some moment of the run. After a call with callables only, and until the next, everybody in the population satisfies what was set, except individuals that were members or were being evaluated at the time of the call. A call with something not callable changes nothing. Refuted: 'all constraints defined by this call will need to be satisfied with each parameter combination': even if all members satisfy the new constraints when they are set, a challenger being evaluated then may become a member, and still be one when the run has ended.", "quantifier": "all populations, settings, constraints (which may raise), user functions and sequences of events of a run, with calls to setConstraints anywhere among them", "why_tests_cant": "Whether a candidate is checked against the old or the new constraints depends on when the call comes relative to mutations and evaluations that are under way.", "anchors": ["ade/population.py: Population.setConstraints, ParameterManager.setConstraints, passesConstraints", "ade/de.py: DifferentialEvolution.challenge, _run"]}
