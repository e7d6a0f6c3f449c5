{"id": "C01", "title": "Caching is transparent to a single-threaded user", "statement": "For a cached function built from a pure calculation, any single-threaded sequence of calls and cache clears returns, call by call, exactly what the calculation itself would return for that argument (NaN arguments and disabled caches included); clearing never changes an answer, only whether the calculation is repeated. Arguments the map considers equal (such as 0.0 and -0.0) share an entry, so this is promised for calculations that respect that equality.", "quantifier": "every calculation respecting key equality, every argument type with a decidable key equality, every finite sequence of calls and clears", "why_tests_cant": "A test exercises a handful of call sequences; the claim is about all histories of calls and clears.", "anchors": ["src/caching.h:CachedFunction::operator()", "src/caching.h:CachedFunction::ClearCache", "src/caching.h:CachedValue::operator()"]}
{"id": "C02", "title": "A cached value is computed at most once between clears, under every schedule", "statement": "When any number of threads call the same cached function concurrently and nobody clears the cache, the underlying calculation is started at most once for each distinct (non-NaN) argument, whatever the interleaving.", "quantifier": "every number of threads, every list of calls per thread, every interleaving of their lock operations", "why_tests_cant": "Thread schedules cannot be enumerated by running the program.", "anchors": ["src/caching.h:CachedFunction::operator()"]}
{"id": "C03", "title": "Every concurrent caller of a cached function gets the right answer and the locking is sound", "statement": "With no concurrent clear, in every interleaving every completed call returns the value of the calculation at its argument, the internal 'DUPLICATE' alarm is never raised, no lock is released by a thread that does not hold it, and no thread waits on or releases a lock record that has been destroyed. Even with concurrent (atomic) clears the alarm, ownership and lifetime parts still hold.", "quantifier": "every number of threads, every program of calls (and clears), every interleaving", "why_tests_cant": "Data races and use-after-free show up only in rare schedules.", "anchors": ["src/caching.h:CachedFunction::operator()", "src/caching.h:WAITING"]}
{"id": "C04", "title": "Concurrent cached-function calls never deadlock", "statement": "If the calculation itself terminates without throwing and does not call back into the same entry, then in every reachable state in which some call is unfinished at least one thread can take a step, and every schedule that keeps running threads that can move finishes all calls after a bounded number of steps.", "quantifier": "every number of threads, every program of calls and clears, every reachable state", "why_tests_cant": "A test that does not hang says nothing about other schedules.", "anchors": ["src/caching.h:CachedFunction::operator()"]}
{"id": "C05", "title": "After a clear, cached functions never serve results from before it", "statement": "Once ClearCache (or Clear_Caches) has returned, every call started afterwards returns a value computed from the state as it was at or after the clear, even if other threads were in the middle of a call when the clear happened.", "quantifier": "every interleaving of calls, changes of the underlying state and clears", "why_tests_cant": "The bad outcomes need a clear at one particular point inside another thread's call.", "anchors": ["src/caching.h:CachedFunction::ClearCache", "src/caching.h:CachedFunction::operator()"]}
{"id": "C06", "title": "Concurrent users of a cached value wait for and share one calculation", "statement": "For a value cached without a key: in every interleaving the calculation is performed once per clear, callers arriving during the calculation wait for it and return its result, and every lock release is by a lock holder. This must hold for the first calculation and for each calculation after a clear.", "quantifier": "every number of threads, every interleaving of calls and clears", "why_tests_cant": "Depends on the schedule and on whether the value was calculated before.", "anchors": ["src/caching.h:CachedValue::operator()", "src/caching.h:CachedValue::CachedValue", "src/caching.h:CachedValue::ClearCache"]}
{"id": "C07", "title": "Clear_Caches clears exactly the live caches", "statement": "After any history of creating (at least one), destroying, filling and clearing cached functions and values, Clear_Caches empties every live cache, touches none that was destroyed, and changes nothing else.", "quantifier": "every history of constructions, destructions, calls and clears", "why_tests_cant": "Unit tests use two or three caches in one order.", "anchors": ["src/caching.cpp:Clear_Caches", "src/caching.cpp:Add_Cache", "src/caching.cpp:Remove_Cache"]}
{"id": "C08", "title": "A calculation that throws leaves the cache usable", "statement": "If the calculation throws for some argument, the exception reaches the caller and later calls - for the same or for other arguments - still return or throw; they never block forever.", "quantifier": "every history of calls in which some calculations throw", "why_tests_cant": "A hang is only observable for the specific later call and cannot be distinguished from slowness by a test.", "anchors": ["src/caching.h:CachedFunction::operator()", "src/caching.h:CachedValue::operator()"]}
{"id": "C09", "title": "Change notification reaches each registered client exactly once", "statement": "After any history of registrations and removals on an object, the ids handed out are pairwise distinct, and a change notification invokes the change action of exactly the clients that are registered and not removed, once each, in order of registration.", "quantifier": "every finite history of registrations, removals and notifications on one object", "why_tests_cant": "The property ranges over all registration histories.", "anchors": ["src/replaceable.h:add_callbacks", "src/replaceable.h:remove_callbacks", "src/replaceable.h:notify_change"]}
{"id": "C10", "title": "Replacing an object hands every client over to the replacement", "statement": "Replacing an object by a fresh one runs the replace action of each registered client exactly once with the replacement, leaves no client on the old object, and from then on notifications on the replacement reach exactly those clients; chains of replacements by fresh objects keep this for the last one.", "quantifier": "every set of clients, every chain of replacements by distinct fresh objects", "why_tests_cant": "Chains of arbitrary length and arbitrary client sets.", "anchors": ["src/replaceable.h:replace"]}
{"id": "C11", "title": "Clients of a replacement do not interfere with one another", "statement": "A client registering with an object after it has replaced another one gets an id of its own: it does not displace a client that was carried over, and removing either client leaves the other registered; clients that registered with the replacement before the replacement took place are kept as well.", "quantifier": "every history of registrations, removals and replacements over several objects", "why_tests_cant": "Needs particular orders of replacement and registration.", "anchors": ["src/replaceable.h:replace", "src/replaceable.h:add_callbacks"]}
{"id": "C12", "title": "Demand rates always reflect the current hazard and response functions", "statement": "The rate of exceedance reported by an engineering demand parameter (EDP) always equals the rate recomputed from its current intensity measure and response function, after any sequence of queries and replacements of the hazard function, the intensity measure or the response function (or of the functions they are built from).", "quantifier": "every history of queries and replacements, every object graph built through the API", "why_tests_cant": "Stale caches appear only after particular query/replace orders.", "anchors": ["src/relationships.cpp:EDP::EDP", "src/relationships.h:IM", "src/functions.cpp:ProbabilisticFn"]}
{"id": "C13", "title": "Component-group results always reflect current inputs", "statement": "Every figure reported by a component group (cost and delay by EDP and IM, annual cost, cost rate, damage-state probabilities and rates) equals the figure recomputed from its current EDP, fragility, cost and delay functions, after any history of queries and of replacements/changes of those inputs.", "quantifier": "every history of queries and replacements", "why_tests_cant": "As C12, with twelve caches and four kinds of input.", "anchors": ["src/comp_group.cpp:CompGroup::CompGroup"]}
{"id": "C14", "title": "The annual cost of a structure always reflects its current contents", "statement": "The annual cost reported by a structure equals the one recomputed from its current component groups, their inputs, the intensity measure, and the rebuild and demolition costs, after any history of adding/removing groups, setting costs, replacing inputs and queries.", "quantifier": "every history of API calls on a structure and the objects it depends on", "why_tests_cant": "Stale results need a query before the change.", "anchors": ["src/structure.cpp:AddCompGroup", "src/structure.cpp:RemoveCompGroup", "src/structure.h:setRebuildCost", "src/comp_group.cpp:CompGroup::CompGroup"]}
{"id": "C15", "title": "Collapse and demolition rates always reflect the current hazard and fragilities", "statement": "The collapse and demolition rates reported by an intensity measure equal those recomputed from its current hazard function and its current collapse and demolition distributions, after any history of settings, replacements and queries.", "quantifier": "every history of SetCollapse, SetDemolition, hazard replacement and rate queries", "why_tests_cant": "Stale results need a query before the change.", "anchors": ["src/relationships.h:IM::SetCollapse", "src/relationships.h:IM::SetDemolition", "src/relationships.cpp:IM::IM"]}
{"id": "C16", "title": "Replacing either response function of a compound demand parameter replaces that one", "statement": "In a compound EDP built from two response functions, replacing the first (second) leaves the second (first) in place and makes the compound use the new one in its place.", "quantifier": "every compound EDP, every history of replacements of either function", "why_tests_cant": "Histories.", "anchors": ["src/relationships.cpp:CompoundEDP::CompoundEDP"]}
{"id": "C17", "title": "Integration settings are always valid", "statement": "After any sequence of calls to the settings API, with any arguments, the tolerance is a number greater than zero and both evaluation limits are at least one; a rejected call changes nothing; an accepted one changes just its own setting; Reset restores all four defaults.", "quantifier": "every sequence of settings calls with arbitrary arguments including NaN, infinities, zero and negatives", "why_tests_cant": "All argument values and sequences.", "anchors": ["src/maq.cpp:IntegrationSettings::Set_Tolerance", "src/maq.cpp:IntegrationSettings::Set_Integration_Eval_Limit", "src/maq.cpp:IntegrationSettings::Reset"]}
{"id": "C18", "title": "Integration always terminates", "statement": "For every integrand (including ones returning NaN, infinities or nonsense), every search method and every setting with a search limit of at most 2^30 and an evaluation limit below 2^32-1, an integration returns, without undefined behaviour, after finitely many integrand evaluations, bounded by a function of the two limits alone; the arithmetic used does not matter.", "quantifier": "every integrand, every setting with search limit <= 2^30 and evaluation limit < 2^32-1, every arithmetic in which x < y excludes y <= x", "why_tests_cant": "Termination for all integrands cannot be tested.", "anchors": ["src/maq.cpp:MAQ", "src/maq.cpp:binary_subdivision", "src/maq.cpp:directed_search"]}
{"id": "C19", "title": "The evaluation limit bounds, and the result reports, the integrand evaluations", "statement": "The number of evaluations reported with a result equals the number of times the integrand was called, and does not exceed the evaluation limits in force (search plus integration).", "quantifier": "every integrand, every valid setting, every search method", "why_tests_cant": "All integrands.", "anchors": ["src/maq.cpp:MAQ"]}
{"id": "C20", "title": "Each search stays within the search limit", "statement": "Each of the five search methods calls the integrand at most max(2, limit) times and reports exactly the number of calls made.", "quantifier": "every integrand, every limit, each search method", "why_tests_cant": "All integrands and limits.", "anchors": ["src/maq.cpp:binary_subdivision", "src/maq.cpp:reverse_binary_subdivision", "src/maq.cpp:low_first_reverse_binary_subdivision", "src/maq.cpp:scattered_search", "src/maq.cpp:directed_search"]}
{"id": "C21", "title": "A search result brackets something worth integrating", "statement": "When a search succeeds, the range it returns is a non-degenerate sub-interval of [0,1] (in the transformed variable) which is either the whole interval or has, at its mid point, a value of the integrand above the detection threshold.", "quantifier": "every integrand, every limit up to 2^24, each search method", "why_tests_cant": "All integrands.", "anchors": ["src/maq.cpp:binary_subdivision", "src/maq.cpp:scattered_search", "src/maq.cpp:directed_search"]}
{"id": "C22", "title": "A search finds every feature wide enough for its limit", "statement": "If the integrand exceeds the detection threshold throughout some interval (of the transformed variable) whose width is at least 4/limit, the search does not report 'nothing found' and the integral is therefore not silently reported as zero.", "quantifier": "every integrand, every limit, each search method", "why_tests_cant": "All integrands and limits.", "anchors": ["src/maq.cpp:binary_subdivision", "src/maq.cpp:reverse_binary_subdivision", "src/maq.cpp:directed_search", "src/maq.cpp:MAQ"]}
{"id": "C23", "title": "Integration failure is always visible", "statement": "An integration that runs out of evaluations, or meets a NaN, returns NaN together with a failure flag; a result flagged as successful is never NaN.", "quantifier": "every integrand, every setting", "why_tests_cant": "All integrands.", "anchors": ["src/maq.cpp:MAQ"]}
{"id": "C24", "title": "A successful integration covers its range exactly once", "statement": "When an integration succeeds, the sub-intervals whose contributions were summed cover the search range with no gap and no overlap, and each met the requested tolerance at the moment it was accepted.", "quantifier": "every integrand, every setting, every arithmetic", "why_tests_cant": "All subdivision histories.", "anchors": ["src/maq.cpp:MAQ"]}
{"id": "C25", "title": "Polynomials up to degree five are integrated exactly", "statement": "In exact arithmetic, if the transformed integrand is a polynomial of degree at most five on the range, every successful integration returns the exact integral over the search range; for degree at most three it succeeds at once.", "quantifier": "every polynomial, range and tolerance", "why_tests_cant": "All polynomials.", "anchors": ["src/maq.cpp:quad", "src/maq.cpp:MAQ"]}
{"id": "C26", "title": "Integrals respect bounds and sign", "statement": "In exact arithmetic, if the transformed integrand lies between m and M on the range [a,b], every successful integration returns a value between m(b-a) and M(b-a); in particular integrals of non-negative functions are never negative.", "quantifier": "every integrand, range and tolerance", "why_tests_cant": "All integrands.", "anchors": ["src/maq.cpp:MAQ"]}
{"id": "C27", "title": "Integration over a range scales with the integrand", "statement": "In exact arithmetic, multiplying the integrand by a non-zero constant multiplies the result of integrating over the same range by that constant and changes neither success nor the number of evaluations.", "quantifier": "every integrand, constant, range and tolerance", "why_tests_cant": "All integrands.", "anchors": ["src/maq.cpp:MAQ"]}
{"id": "C28", "title": "Integration statistics account for every call", "statement": "After any sequence of integrations, settings changes and statistics resets, calls = successes + integration failures + search failures + NaN failures, the totals are the sums over the calls since the last reset, and the recorded maxima are attained by calls since the last reset that succeeded.", "quantifier": "every sequence of integrations of arbitrary integrands, settings changes and resets", "why_tests_cant": "Histories.", "anchors": ["src/maq.cpp:stats", "src/maq.cpp:reset_statistics", "src/maq.cpp:MAQ"]}
{"id": "C29", "title": "Integration statistics are correct under concurrency", "statement": "When integrations run in parallel, in every interleaving the counters and totals end up the same as if they had been run one after another, and so do the recorded maxima.", "quantifier": "every number of threads, every interleaving", "why_tests_cant": "Schedules.", "anchors": ["src/maq.cpp:MAQ"]}
{"id": "C30", "title": "Lognormal parameters round-trip", "statement": "A lognormal distribution created from any supported pair of location (mean, median or log-mean) and spread (standard deviation or log standard deviation) reports back that same pair, and the five reported parameters are mutually consistent; unsupported pairs yield a distribution all of whose parameters are NaN.", "quantifier": "every positive location and non-negative spread, every parameter combination", "why_tests_cant": "All real parameter values.", "anchors": ["src/lognormaldist.cpp:LogNormalDist_from_*", "src/lognormaldist.cpp:get_*", "src/pyslatcore.cpp:MakeLogNormalDist"]}
{"id": "C31", "title": "Lognormal probabilities are probabilities", "statement": "For every distribution and value, P(at least) and P(at most) lie in [0,1], sum to one, are monotone in the value, and the quantile function inverts P(at most), including the degenerate distributions (zero spread, certain zero, infinite).", "quantifier": "every valid distribution, every value, every probability", "why_tests_cant": "All real values.", "anchors": ["src/lognormaldist.cpp:p_at_least", "src/lognormaldist.cpp:p_at_most", "src/lognormaldist.cpp:x_at_p"]}
{"id": "C32", "title": "Scaling a cost scales its mean and keeps its dispersion", "statement": "Applying an adjustment factor f > 0 to a distribution multiplies mean, median, standard deviation and every quantile by f and leaves the log standard deviation unchanged; factors compose by multiplication; factor one changes nothing.", "quantifier": "every valid distribution, every positive factor", "why_tests_cant": "All real values.", "anchors": ["src/lognormaldist.cpp:ScaleDistribution", "src/lognormaldist.cpp:ApplyAdjustmentFactor"]}
{"id": "C33", "title": "Adding costs adds means and variances, in any order", "statement": "The sum of any number of cost distributions has as mean the sum of the means and as variance the sum of the variances; the result does not depend on the order or grouping of the summands, and adding the certain-zero cost changes nothing.", "quantifier": "every finite list of valid distributions, every permutation and grouping", "why_tests_cant": "Lists of all lengths.", "anchors": ["src/lognormaldist.cpp:AddDistributions"]}
{"id": "C34", "title": "Weighted combination of costs is the mixture", "statement": "Combining cost distributions with weights gives the mean and variance of the mixture in which the remaining probability costs nothing; the variance is never negative when weights are probabilities summing to at most one; lists of different lengths are rejected.", "quantifier": "every finite list of valid distributions and weights", "why_tests_cant": "Lists of all lengths.", "anchors": ["src/lognormaldist.cpp:AddWeightedDistributions"]}
{"id": "C35", "title": "Damage-state probabilities form a distribution", "statement": "For every accepted fragility function and every demand: the probability of reaching each damage state is non-increasing in the state, the probabilities of being in exactly each state are non-negative and add up to the probability of reaching the first state.", "quantifier": "every accepted fragility function, every demand value", "why_tests_cant": "All distributions and demands.", "anchors": ["src/fragility.cpp:FragilityFn", "src/fragility.cpp:pExceeded", "src/fragility.cpp:pHighest"]}
{"id": "C36", "title": "Ill-ordered fragility functions are rejected", "statement": "A fragility function is accepted exactly when it has at least one damage state and their median demands are strictly increasing.", "quantifier": "every list of distributions", "why_tests_cant": "Lists of all lengths and values.", "anchors": ["src/fragility.cpp:FragilityFn"]}
{"id": "C37", "title": "Expected repair cost is the count times the probability-weighted unit cost", "statement": "For a simple loss function, the mean cost given a demand is the adjustment factor times the number of components times the probability-weighted mean unit cost; it is linear in the count, monotone in each unit cost and never negative.", "quantifier": "every loss function, fragility function, count, adjustment factor and demand", "why_tests_cant": "All values.", "anchors": ["src/loss_functions.cpp:CalculateUnadjustedLoss", "src/loss_functions.cpp:CalculateLoss"]}
{"id": "C38", "title": "Bi-level unit costs interpolate between their two levels", "statement": "The bi-level unit cost equals the first cost for counts up to the lower threshold, the second for counts from the upper threshold, lies between the two otherwise and is monotone in the count in the direction from the first to the second; it is defined for every count.", "quantifier": "every parameter set, every count", "why_tests_cant": "All counts and parameters, overflow included.", "anchors": ["src/loss_functions.cpp:BiLevelLoss::LossFunctionsForCount_calc"]}
{"id": "C39", "title": "Loss functions with the wrong number of states are rejected", "statement": "Evaluating a loss function against a fragility function with a different number of damage states raises an error instead of returning a cost.", "quantifier": "every pair of loss and fragility functions", "why_tests_cant": "All list lengths.", "anchors": ["src/loss_functions.cpp:BiLevelLossFn::CalculateUnadjustedLoss", "src/lognormaldist.cpp:AddWeightedDistributions"]}
{"id": "C40", "title": "The three fates have probabilities that add up to one", "statement": "For every intensity, the probabilities that the structure is repaired, demolished or collapses each lie in [0,1] and add up to one; without collapse and demolition curves repair is certain; the vector forms agree pointwise with the scalar forms.", "quantifier": "every intensity measure, collapse and demolition distribution, intensity", "why_tests_cant": "All distributions and values.", "anchors": ["src/relationships.h:IM::pRepair", "src/relationships.h:IM::pDemolition", "src/relationships.h:IM::pCollapse"]}
{"id": "C41", "title": "Interpolated functions pass through their points and never overshoot", "statement": "A linearly interpolated function returns the given value at each given point, is between the neighbouring values elsewhere, and beyond the table returns the nearest end value; a log-log interpolated one does the same within the table and is zero or clipped outside as documented.", "quantifier": "every table with strictly increasing abscissae, every argument", "why_tests_cant": "Tables of all lengths.", "anchors": ["src/functions.cpp:LinearInterpolatedFn", "src/functions.cpp:LogLogInterpolatedFn"]}
{"id": "C42", "title": "Lognormal response functions accept every advertised parameter combination", "statement": "A response function built from any advertised pair of location and spread interpretations returns, for every input, the location and spread it was given, in finite time.", "quantifier": "every parameter combination, every input", "why_tests_cant": "Divergence cannot be observed by a test.", "anchors": ["src/functions.cpp:LogNormalFn::LogNormalFn"]}
{"id": "C43", "title": "A component group with no components costs nothing, and integration failure is not mistaken for zero cost", "statement": "If the count is zero every reported cost and delay is zero; if the count is positive a reported zero mean cost at an intensity means the expected cost really is zero, not that the calculation failed.", "quantifier": "every component group, every intensity, every integration outcome", "why_tests_cant": "All integrands.", "anchors": ["src/comp_group.cpp:E_cost_IM_calc", "src/comp_group.cpp:calc_Rate"]}
{"id": "C44", "title": "A structure only ever mixes groups of one intensity measure", "statement": "After any sequence of additions, removals and (attempted) additions, all component groups of a structure share one intensity measure; a group with a different one is rejected with an error and leaves the structure unchanged.", "quantifier": "every history of additions and removals", "why_tests_cant": "Histories.", "anchors": ["src/structure.cpp:AddCompGroup", "src/structure.cpp:RemoveCompGroup"]}
{"id": "C45", "title": "Structure contents behave as a list with removal of the first match", "statement": "Components() always returns the groups added and not removed, in order of addition; removing a group removes one occurrence; removing an absent group changes nothing.", "quantifier": "every history of additions and removals", "why_tests_cant": "Histories.", "anchors": ["src/structure.cpp:AddCompGroup", "src/structure.cpp:RemoveCompGroup", "src/structure.h:Components"]}
{"id": "C46", "title": "Total cost is the probability-weighted cost over fates", "statement": "The mean total cost at an intensity equals repair probability times repair cost plus demolition probability times demolition cost plus collapse probability times rebuild cost; it agrees with the costs reported by fate.", "quantifier": "every structure, every intensity", "why_tests_cant": "All values.", "anchors": ["src/structure.cpp:TotalCost", "src/structure.cpp:CostsByFate"]}
{"id": "C47", "title": "Discounted expected cost is monotone and consistent", "statement": "The expected discounted cost is zero for zero years, non-decreasing in the number of years, non-increasing in the discount rate, at most annual cost times years, and at zero discount rate equals annual cost times years.", "quantifier": "every annual cost, discount rate and number of years", "why_tests_cant": "All values.", "anchors": ["src/structure.cpp:E_cost"]}
{"id": "C48", "title": "Grouping of components loses and duplicates nothing", "statement": "Grouping the components of a structure by EDP or by fragility yields non-empty groups, every component appears in exactly one group the same number of times as in the structure, and two components share a group exactly when they share the EDP (fragility).", "quantifier": "every structure", "why_tests_cant": "Lists of all lengths.", "anchors": ["src/pyslatcore.cpp:Structure::ComponentsByEDP", "src/pyslatcore.cpp:Structure::ComponentsByFragility"]}
{"id": "C49", "title": "A compound demand parameter uses the response with the larger mean", "statement": "At each intensity a compound EDP answers every query (mean, median, spread, exceedance, quantile) with the one of its two responses whose mean is larger, consistently across the queries.", "quantifier": "every pair of responses, every intensity", "why_tests_cant": "All values.", "anchors": ["src/relationships.cpp:CompoundEDP"]}
{"id": "C50", "title": "Ranges generated for recorders have the advertised points", "statement": "A counted linear or logarithmic range has exactly the requested number of points, starts at the first and ends at the last value and is strictly monotone; a stepped range contains exactly start, start+step, ... up to and including the end value when the steps hit it.", "quantifier": "every start, end, step and count", "why_tests_cant": "All values.", "anchors": ["src/pyslat.py:frange", "src/pyslat.py:linrange", "src/pyslat.py:logrange"]}
{"id": "C51", "title": "Diagnostic context is properly nested", "statement": "After any properly nested sequence of context scopes, including nested parallel threads, the context text of a thread consists of exactly the open scopes of that thread and its ancestors, outermost first, and closing all scopes restores the initial state.", "quantifier": "every nesting and number of threads", "why_tests_cant": "All nestings.", "anchors": ["src/context.h:TempContext", "src/context.cpp:PushText", "src/context.cpp:PopText", "src/context.cpp:GetText"]}
{"id": "C52", "title": "Every command of the scripting language leaves the interpreter's stacks clean", "statement": "For every syntactically valid command the interpreter consumes exactly the values its sub-clauses produced and calls the API with the arguments the command spells out.", "quantifier": "every command derivable from the grammar", "why_tests_cant": "Infinitely many scripts.", "anchors": ["src/SlatInterpreter.py:exit*", "src/slatParser.g4"]}
{"id": "C53", "title": "Redefinition in a script rewires every user of the old definition", "statement": "Defining an intensity measure, demand parameter, fragility, loss function or component group under an existing name makes every object that used the old definition use the new one.", "quantifier": "every script", "why_tests_cant": "Infinitely many scripts.", "anchors": ["src/pyslat.py:im.__init__", "src/pyslat.py:edp.__init__", "src/pyslat.py:fragfn.__init__", "src/pyslat.py:lossfn.__init__", "src/pyslat.py:compgroup.__init__", "src/pyslat.py:detfn.__init__", "src/pyslat.py:probfn.__init__"]}
{"id": "C54", "title": "Hazard curves are non-negative, non-increasing and clipped as documented", "statement": "The nonlinear hyperbolic hazard curve is non-negative and non-increasing over positive intensities, reaches zero at the asymptote and is never greater than one.", "quantifier": "every valid parameter set, every intensity", "why_tests_cant": "All values.", "anchors": ["src/functions.cpp:NonLinearHyperbolicLaw::Evaluate"]}
{"id": "C55", "title": "No limit the settings API accepts makes an integration misbehave", "statement": "With any limits the settings API accepts (1 to 2^32-1) an integration returns and has no undefined behaviour.", "quantifier": "every integrand, every accepted limit", "why_tests_cant": "Non-termination cannot be observed by a test, and the extreme limits take too long to run.", "anchors": ["src/maq.cpp:binary_subdivision", "src/maq.cpp:MAQ"]}
{"id": "C56", "title": "Figures reflect the integration settings in force", "statement": "After the integration settings are changed, every figure reported is the one computed under the new settings.", "quantifier": "every history of API calls with changes of the settings at any point", "why_tests_cant": "A test changes settings before or after one particular query; remembered figures depend on the whole history.", "anchors": ["src/maq.cpp:Integration::Set", "src/relationships.cpp:calc_lambda", "src/caching.h:CachedFunction"]}
{"id": "C57", "title": "No callback of a destroyed object runs", "statement": "Once an object has been destroyed, no later change of an object it referred to calls back into it.", "quantifier": "every history of creations, replacements, changes and destructions", "why_tests_cant": "Use after free depends on the order of destruction and later changes and usually goes unnoticed in a test.", "anchors": ["src/replaceable.h:remove_callbacks", "src/relationships.h:~EDP", "src/comp_group.cpp:~CompGroup", "src/structure.h:~Structure"]}
{"id": "C58", "title": "One intensity measure per structure, also under replacement", "statement": "The component groups of a structure share one intensity measure at all times, including after objects they depend on have been replaced.", "quantifier": "every history of API calls including replacements", "why_tests_cant": "The check is made once, on addition; replacements happen afterwards in any order.", "anchors": ["src/structure.cpp:AddCompGroup", "src/replaceable.h:replace", "src/comp_group.h:getIM"]}
{"id": "C59", "title": "Interpolated functions may be evaluated by several threads at once", "statement": "Evaluating a hazard curve given as a table at a vector of intensities, which is done by several threads, returns at each intensity the same value as evaluating it there alone.", "quantifier": "every table, every vector of intensities, every interleaving of the threads", "why_tests_cant": "A data race on the accelerator's index shows only in rare interleavings.", "anchors": ["src/relationships.cpp:IM::lambda", "src/functions.cpp:LinearInterpolatedFn::Evaluate"]}
{"id": "C60", "title": "Function definitions with unsuitable parameters are refused", "statement": "Defining a deterministic function with parameters that do not suit its type raises an error and does nothing else; with suitable ones the function can be evaluated at every argument.", "quantifier": "every function type, every list of parameters", "why_tests_cant": "Lists of all lengths and contents; reading past the end of a vector need not show in a test.", "anchors": ["src/pyslat.py:detfn", "src/pyslatcore.cpp:factory2", "src/pyslatcore.cpp:factory3"]}
{"id": "C61", "title": "Delays are calculated like costs", "statement": "A component group whose delay function and factor equal its cost function and factor reports the same mean and the same logarithmic standard deviation for delay as for cost at every intensity.", "quantifier": "every component group, every number of components, every intensity, every integration setting", "why_tests_cant": "All counts, loss functions and demand parameters; a wrong scaling by the count does not show with one component.", "anchors": ["src/comp_group.cpp:SD_ln_delay_IM_calc", "src/comp_group.cpp:E_delay_IM_calc"]}
{"id": "C62", "title": "The cost distribution of a group has the integrated mean and variance", "statement": "If the mean and the mean square of a group's cost at an intensity have been integrated to m and q, the distribution reported for the cost there has mean m and variance q - m^2, or none if that is negative.", "quantifier": "every component group, every intensity, every outcome of the two integrations", "why_tests_cant": "All values, including those where the variance is negative by errors of integration.", "anchors": ["src/comp_group.cpp:CostDist_IM", "src/comp_group.cpp:SD_ln_cost_IM_calc"]}
{"id": "C63", "title": "Output and data files are where the script says", "statement": "A file named in a recorder is written under the name as it is if it has a directory, else within the output directory set ('.' if none is), with '.csv' added if the last component has no extension; a path completed this way stands for itself.", "quantifier": "every directory set, every name", "why_tests_cant": "All names, with any arrangement of slashes and dots.", "anchors": ["src/pyslat.py:full_output_path", "src/pyslat.py:recorder.run"]}
{"id": "C64", "title": "Recorders print the tables described in the manual", "statement": "Every type of recorder prints the heading and the rows its description promises: abscissa first, then the figures asked for (or the default ones), each the library's value at that abscissa, in columns of fixed width, and ends normally.", "quantifier": "every type of recorder, every object, every list of columns and of values, every library of figures", "why_tests_cant": "Twenty types, arbitrary lists of columns and values; the values are those of the numerical library.", "anchors": ["src/pyslat.py:recorder.generate_output", "src/pyslat.py:recorder.__init__"]}
{"id": "C65", "title": "Tables can be read back", "statement": "Splitting a line of a table at blanks gives the cells of that line.", "quantifier": "every table, every line, every name of a measure or parameter", "why_tests_cant": "All lengths of names and numbers.", "anchors": ["src/pyslat.py:recorder.generate_output"]}
{"id": "C66", "title": "Analyze leaves every recorder's table in its file", "statement": "After 'analyze', the file each recorder in force names holds its table, replacing what was there or after it as the recorder asks; other files are untouched; running it again changes nothing unless recorders append; a failing recorder does not damage the tables written before it.", "quantifier": "every list of recorder definitions, every file system, every outcome of each recorder", "why_tests_cant": "All sequences of definitions and redefinitions, files shared in any pattern, failures at any point.", "anchors": ["src/SlatInterpreter.py:exitAnalyze_command", "src/pyslat.py:recorder.run"]}
{"id": "C67", "title": "Recorders report the definitions in force", "statement": "Whenever it is run, a recorder shows the figures of the definition then in force of the object it names.", "quantifier": "every script before and after the recorder's definition, every figure", "why_tests_cant": "All sequences of definitions and redefinitions of the object and of what it is made of.", "anchors": ["src/SlatInterpreter.py:exitRecorder_command", "src/pyslat.py:recorder"]}
{"id": "C68", "title": "Log messages go where they were last told to", "statement": "A message is written to standard error exactly once if logging to it is on (the default, or as last switched), and to the log file named last, and nowhere else.", "quantifier": "every sequence of switching and naming of log files", "why_tests_cant": "All sequences of commands.", "anchors": ["src/pyslatcore.cpp:LogToStdErr", "src/pyslatcore.cpp:SetLogFile"]}
{"id": "C69", "title": "Imported functions give the distributions in their files", "statement": "Importing a file of responses at increasing intensities gives a function whose distribution at each intensity has the average and standard deviation of the logarithms of the responses that are not collapses, interpolated in between; an imported intensity measure passes through its table, log-log in between.", "quantifier": "every file of numbers, every intensity, every earlier evaluation", "why_tests_cant": "All tables of any size and all points between their rows.", "anchors": ["src/pyslat.py:ImportProbFn", "src/pyslat.py:ImportIMFn"]}
{"id": "C70", "title": "Strings in scripts stand for what the manual says", "statement": "A quoted string in a script ends at its closing quote and stands for its characters, with quotes of the other kind as they are and escaped quotes and backslashes replaced.", "quantifier": "every string of either kind, every text after it", "why_tests_cant": "All strings of all lengths, with all combinations of quotes and escapes, before any script text.", "anchors": ["src/slatLexer.g4:STRING", "src/SlatInterpreter.py:preprocess_string", "slat-lang.org:Title"]}
{"id": "C71", "title": "Mistakes in definitions reach the script as exceptions", "statement": "Whatever numbers and objects a Python script (or SLAT script) defines fragility functions, loss functions, component groups and structures from, and whatever figures it asks of them, a mistake is reported as an exception the script can handle; no definition and no request ends the process.", "quantifier": "every list of states, every combination of options, every demand parameter, fragility, cost and delay function (or none), every count, every request given a demand or an intensity, all integration settings", "why_tests_cant": "Which of infinitely many definitions and requests end the process; a test harness that meets one does not survive it.", "anchors": ["src/pyslat.py:fragfn_user", "src/pyslat.py:simplelossfn", "src/pyslat.py:bilevellossfn", "src/pyslat.py:compgroup", "src/pyslatcore.i", "src/fragility.cpp:FragilityFn", "src/lognormaldist.cpp:AddWeightedDistributions", "src/comp_group.cpp:E_cost_IM_calc"]}
{"id": "C72", "title": "Fragility and loss functions have the distributions given", "statement": "The damage states of a fragility or loss function defined from Python are lognormal with the locations and spreads given, read as the options say and as mean and standard deviation of the logarithm where an option is omitted; combinations that are not supported are refused.", "quantifier": "every list of pairs of numbers, every combination of options, given or not", "why_tests_cant": "All numbers and all combinations of options, including the zeros the constructor treats as missing.", "anchors": ["src/pyslat.py:fragfn_user", "src/pyslat.py:simplelossfn", "src/SlatInterpreter.py:exitLognormal_options", "src/pyslatcore.cpp:MakeLogNormalDist", "slat-lang.org:Loss Functions"]}
{"id": "C73", "title": "States that cost nothing and groups without delays do no harm", "statement": "The mean cost of a component group given a demand is the count times the unit costs given, weighted with the probabilities of the damage states, where a state whose cost is zero contributes nothing; and a group defined without a delay function answers requests for delays.", "quantifier": "every fragility function, every list of unit costs including zero, every count, every demand and intensity, all settings", "why_tests_cant": "A statement about every group with a zero among its costs, and about integrals at every intensity under all settings.", "anchors": ["src/pyslat.py:simplelossfn", "src/pyslat.py:MakeCompGroup", "src/lognormaldist.cpp:LogNormalDist", "src/comp_group.cpp:E_cost_IM_calc"]}
{"id": "C74", "title": "Every script command acts on the objects it names, and on nothing else", "statement": "A definition gives its name a new object made of exactly the parts named, in their roles; -add appends the named group to the named structure (or rejects it if the measures differ), -remove takes its first occurrence out, collapse, demolition and cost settings alter just that datum of the named object; a command mentioning an undefined name changes nothing; no command alters other names or objects, except that pointers to a redefined object may lead to the new one.", "quantifier": "every script, including redefinitions, further use of redefined names, failed commands and garbage collection at any time", "why_tests_cant": "A statement about every sequence of commands, with the frame condition over every other object.", "anchors": ["src/pyslat.py:im.__init__", "src/pyslat.py:edp.__init__", "src/pyslat.py:probfn.__init__", "src/pyslat.py:compgroup.__init__", "src/pyslat.py:structure.AddCompGroup", "src/pyslat.py:structure.setRebuildCost", "src/structure.cpp:AddCompGroup"]}
{"id": "C75", "title": "How a script is laid out does not matter", "statement": "Any text consisting of words of the language, with blanks, tabs, line ends and comments between them wherever words would otherwise run together, is read as those words.", "quantifier": "every sequence of words, every layout of it", "why_tests_cant": "Unboundedly many texts; the exceptions concern one keyword after one kind of white space.", "anchors": ["src/slatLexer.g4", "src/SlatInterpreter.py:slatParser", "slat-lang.org:Comments"]}
{"id": "C76", "title": "Numbers may be written in the usual ways", "statement": "Every number written in one of the usual ways (sign, point, exponent) is read as a number, as an integer if it has digits only, and an integer has the value its digits say.", "quantifier": "every numeral, every text after it", "why_tests_cant": "Unboundedly many numerals; the exceptions are decided by which of two rules comes first.", "anchors": ["src/slatLexer.g4:INTEGER", "src/slatLexer.g4:FLOAT_VAL", "src/slatLexer.g4:ID", "slat-lang.org:Numerical Values"]}
{"id": "C77", "title": "Python expressions are taken whole", "statement": "A Python expression in $(...) extends to the parenthesis that closes it as Python reads it, every character between is handed to Python, and the script goes on after it.", "quantifier": "every expression, nested to any depth, every text after it", "why_tests_cant": "Unboundedly many expressions and depths of nesting.", "anchors": ["src/slatLexer.g4:PYTHON_ESCAPE", "src/slatLexer.g4:PYMODE", "src/SlatInterpreter.py:exitPython_script"]}
{"id": "C78", "title": "Nothing in a script is passed over", "statement": "Every character of a script is part of a word, of white space or of a comment, or else of something reported as an error, in which case the script is not executed as though it were not there.", "quantifier": "every text", "why_tests_cant": "A statement about every sequence of characters.", "anchors": ["src/slatLexer.g4", "src/SlatInterpreter.py:slatParser"]}
{"id": "C79", "title": "Annual figures accumulate conditional figures over the hazard", "statement": "Each figure given an intensity is what the integration routine makes of the figure at each demand times the absolute slope of the demand curve; each annual figure of a group, an intensity measure, a demand or a structure is what it makes of the figure at each intensity times the absolute slope of the hazard curve; the slope is the first usable of the central, forward and backward estimates.", "quantifier": "every hazard, demand, fragility, loss, collapse and demolition curve, every intensity and all settings", "why_tests_cant": "A statement about every curve and every point at which it is evaluated.", "anchors": ["src/comp_group.cpp:E_annual_cost_calc", "src/comp_group.cpp:lambda_cost_calc", "src/relationships.cpp:IM::DerivativeAt", "src/relationships.cpp:IM::CollapseRate_calc", "src/relationships.cpp:IM::DemolitionRate_calc", "src/relationships.cpp:EDP::calc_lambda", "src/structure.cpp:calc_AnnualCost"]}
{"id": "C80", "title": "The tolerance bounds the error", "statement": "An integration reported as successful is within the tolerance that was set of the integral over the range that was found.", "quantifier": "every integrand and all settings", "why_tests_cant": "The error depends on values of the integrand that the routine never looks at.", "anchors": ["src/maq.cpp:MAQ", "src/maq.cpp:IntegrationSettings::Set_Tolerance"]}
{"id": "C81", "title": "A script does what its text spells", "statement": "A text whose words are those of a script, however it is laid out, is parsed as that script and no other; running files makes exactly the calls their commands spell out, file after file, until an exception; a file whose words form no script has no effect.", "quantifier": "every text, every list of files, every outcome of the calls", "why_tests_cant": "A statement about all texts and about all trees the grammar derives.", "anchors": ["src/SlatInterpreter.py:main", "src/slatParser.g4", "src/slatLexer.g4"]}
{"id": "C82", "title": "Nested and parallel calculations give the sequential results", "statement": "When calculations ask other caches and run parallel loops and sections, every figure obtained is the one a single thread without caches would compute, and no calculation is started twice for the same argument, in any cache.", "quantifier": "every number of caches of both kinds, every set of calculations that do not ask in circles, every number of requesting threads, every interleaving and every sharing of iterations", "why_tests_cant": "The interleavings of nested parallel calculations cannot be enumerated; tests run a few.", "anchors": ["src/caching.h:CachedFunction::operator()", "src/caching.h:CachedValue::operator()", "src/comp_group.cpp:CostDist_IM", "src/structure.cpp:calc_AnnualCost"]}
{"id": "C83", "title": "Nested and parallel calculations finish", "statement": "Calculations that ask other caches and run parallel regions never deadlock, and every execution ends after a bounded number of steps with everybody having their result.", "quantifier": "every set of calculations whose requests have no circles, as those of SLAT; every interleaving and sharing of iterations", "why_tests_cant": "Absence of deadlock is a statement about all interleavings.", "anchors": ["src/caching.h", "src/comp_group.cpp", "src/structure.cpp", "src/relationships.cpp"]}
{"id": "C84", "title": "A list of arguments gives the list of results", "statement": "Each method of im and edp that accepts a list returns, in order, what it returns for the members of the list, however the parallel loop is scheduled.", "quantifier": "every method, every list, every order in which iterations finish, every interleaving", "why_tests_cant": "All orders of all lists; and a statement about each method.", "anchors": ["src/pyslat.py:im", "src/pyslat.py:edp", "src/pyslatcore.i", "src/pyslatcore.cpp:bulk_Mean", "src/relationships.cpp:IM::lambda"]}
{"id": "C85", "title": "The slopes used in figures are the derivatives of the curves", "statement": "The slope computed for a curve at an argument, by which every annual figure and every figure given an intensity weights its integrand, is the derivative of the curve there: exactly for curves of degree four or less and inside the segments of a table, up to a bound on the fifth derivative otherwise; at a corner the mean of the slopes on both sides, at the end of the curve's range the slope towards the inside.", "quantifier": "every curve, argument and step", "why_tests_cant": "The tests compare a few slopes of a few curves with a tolerance; which curves and arguments are exact, and how far others are off, is a statement about all of them.", "anchors": ["src/functions.cpp:DeterministicFn::DerivativeAt", "src/relationships.cpp:IM::DerivativeAt", "src/relationships.cpp:EDP::DerivativeAt", "src/comp_group.cpp:CompGroup::E_cost_IM"]}
{"id": "C86", "title": "In double precision, integrals of non-negative integrands are never negative", "statement": "With every rounding, overflow and underflow made as the processor makes it, an integral whose integrand is nowhere negative (or not a number) is not negative; so annual costs, delays and rates of collapse are never reported as negative numbers.", "quantifier": "every integrand, every method, every limit, every tolerance", "why_tests_cant": "All integrands and settings; the signs of rounded, overflowing and cancelling sums.", "anchors": ["src/maq.cpp:MAQ", "src/maq.cpp:binary_subdivision", "src/structure.cpp:AnnualCost"]}
{"id": "C87", "title": "What an object says of its inputs is what it uses", "statement": "The measure, demand parameter, function, fragility or loss function an object gives as its own (get_IM, fragfn, the names in headings and descriptions, the probabilities recorded for a group by demand) is the one its figures are computed from, also after definitions have been replaced.", "quantifier": "every script of definitions, redefinitions, additions and collections, every object in it", "why_tests_cant": "All scripts; the attributes kept by Python and the pointers kept by the library diverge only in certain orders of definitions.", "anchors": ["src/pyslat.py:edp.get_IM", "src/pyslat.py:compgroup.fragfn", "src/pyslat.py:recorder", "src/replaceable.h"]}
{"id": "C88", "title": "A group can be added to a structure exactly if it depends on the structure's measure", "statement": "AddCompGroup succeeds if the structure is empty or the group depends on its measure, and then the group is the last of the structure; otherwise it fails and leaves the structure as it was.", "quantifier": "every script, every structure and group", "why_tests_cant": "All scripts, with redefinitions and removals before the addition; the tests add groups of one measure to new structures (and the source has a todo to test others).", "anchors": ["src/pyslat.py:structure.AddCompGroup", "src/structure.cpp:AddCompGroup"]}
{"id": "C89", "title": "Printing a definition shows it", "statement": "print detfn, probfn, im, edp, fragfn, lossfn and compgroup show the definition: objects defined differently are shown differently, with every name and value in its place; printing an object never fails, and never looks like printing an unknown name.", "quantifier": "every object of every kind with names of letters, digits and underscores and any values", "why_tests_cant": "That two different definitions never look alike is a statement about all pairs of definitions, over nested lists and dictionaries of any size.", "anchors": ["src/pyslat.py:detfn.__str__", "src/pyslat.py:probfn.__str__", "src/pyslat.py:im.__str__", "src/pyslat.py:edp.__str__", "src/pyslat.py:fragfn_user.__str__", "src/pyslat.py:simplelossfn.__str__", "src/pyslat.py:compgroup.__str__"]}
{"id": "C90", "title": "Printed text goes where it should", "statement": "Text printed without a file name appears on the terminal, in order; text printed to a file replaces what it held, or with --append follows it; other files are untouched; a title is printed as its lines; a file name means the same file in a print command as in a recorder.", "quantifier": "every sequence of print commands, every initial state of the files, every file name and output directory", "why_tests_cant": "A statement about all interleavings of new and appended output to any number of files.", "anchors": ["src/SlatInterpreter.py:exitPrint_command", "src/SlatInterpreter.py:exitPrint_options", "src/pyslat.py:full_output_path", "src/pyslat.py:recorder.run"]}
{"id": "C91", "title": "Objects are found by name and by what they wrap", "statement": "Looking a name up gives the object of the latest accepted definition of it since the last ClearCaches, and nothing without one; a definition without a name is found under no name; looking a library object up gives the definition that wraps it; a definition that fails changes no lookup and hands no users over, one that succeeds hands the users of the previous definition over once; no definition ends the process; what a structure is made of can be found by name.", "quantifier": "every sequence of definitions, failed definitions, placeholders and ClearCaches, over every class and any number of names; every script", "why_tests_cant": "The dictionaries depend on the whole history of definitions, failures and clearings; tests see a few short histories.", "anchors": ["src/pyslat.py:ClearCaches", "src/pyslat.py:edp.lookup", "src/pyslat.py:fragfn.lookup", "src/pyslat.py:compgroup.lookup", "src/pyslat.py:fragfn_db.__init__", "src/pyslatcore.cpp:AreSame"]}
{"id": "C92", "title": "Every method of the Python classes gives the figure it names", "statement": "Given arguments of the kinds its documentation names, every method of the Python classes for distributions, functions, intensity measures, demand parameters, fragilities, component groups and structures asks the library for the figure it is documented to give, for these arguments in this order, and returns it in the form documented; whatever it is given, no method returns another figure. A cost that a structure returned can be given to it. The hint for plotting is the one last set, or None.", "quantifier": "every method but those that take lists or give groups, and every sequence of arguments, numbers being of any type", "why_tests_cant": "Methods are looked up by name in bindings generated from declarations, only when called, and arguments are converted by type; a test sees one method with one kind of argument.", "anchors": ["src/pyslat.py:lognormaldist", "src/pyslat.py:probfn", "src/pyslat.py:im", "src/pyslat.py:edp", "src/pyslat.py:compgroup", "src/pyslat.py:structure", "src/pyslatcore.i", "src/pyslatcore.cpp"]}
{"id": "C93", "title": "The report on integrations can be read", "statement": "Whatever settings were made and integrations run before, a report gives every counter and both limits exactly, the method by its name and the tolerance to six digits, each on one line under its own label; asking for it changes neither settings, nor counters, nor later results. From the report settings and counters can be told.", "quantifier": "every sequence of settings, integrations of any functions, resets and requests for reports; every positive double as tolerance", "why_tests_cant": "The numbers printed take all values up to 2^64 and the tolerance every positive double, printed by rules that depend on its magnitude; a test compares one text.", "anchors": ["src/maq.cpp:get_statistics", "src/maq.cpp:format_statistics", "src/pyslatcore.cpp:format_statistics", "src/pyslat.py:Format_Statistics"]}
{"id": "C94", "title": "In double precision total costs are numbers", "statement": "As computed in double precision, the probabilities of repair, demolition and collapse are probabilities adding up to one; the total cost, the cost with collapse, weighted and plain sums of costs and the annual cost have a mean and a deviation that are numbers, not negative, equal to those of the mixture or sum but for rounding, with error bounds stated; and the distribution made from a mean and a deviation has finite parameters that belong to them.", "quantifier": "all doubles as values of the curves that are probabilities in order, all costs up to 2^400, all lists of up to 2^20 distributions with any weights between zero and one, any logarithm right to 50 bits", "why_tests_cant": "Cancellation between the expected square and the squared mean depends on the last bits of each operand; a test with round figures never meets the combinations where rounding makes the variance negative and the result is lost.", "anchors": ["src/structure.cpp:TotalCost", "src/structure.cpp:Cost", "src/structure.cpp:calc_AnnualCost", "src/lognormaldist.cpp:AddWeightedDistributions", "src/lognormaldist.cpp:AddDistributions", "src/lognormaldist.cpp:LogNormalDist_from_mean_X_and_sigma_X", "src/relationships.h:pRepair", "src/relationships.h:pDemolition"]}
{"id": "C95", "title": "The comparison of results notices differences", "statement": "If the script that compares results with expected results succeeds, every file of results is there, has the heading and the fields expected, words are equal and numbers agree to one part in a thousand; and files that agree in this sense succeed.", "quantifier": "all texts of files, all directories, both behaviours of gawk on missing lines", "why_tests_cant": "The comparison is itself the oracle of the project's regression test: what it lets pass is seen by no test, and files that happen to agree show nothing about the ones that do not.", "anchors": ["compare-values.awk", "check-c-results.sh"]}
{"id": "C96", "title": "A group's figures in double precision are numbers, and right", "statement": "In double precision: the chances of the damage states are probabilities that follow the fragility curves and add up; a loss with two levels stays between them; distributions give back the mean and the deviation they were made of; scaling multiplies the mean only; the loss of a group at a demand and the distribution of its cost at an intensity have finite parameters, which are those of the exact calculation to stated errors.", "quantifier": "all probabilities, counts, factors, means, deviations and integrals in stated ranges, all lists of up to 256 losses, all logarithms and exponentials right to 2^-50", "why_tests_cant": "Tests compare a few ordinary values with a tolerance; lost variances, negative differences and underflow of squares appear only for values that no test chooses, and no finite set of cases bounds the rounding error.", "anchors": ["src/fragility.cpp", "src/loss_functions.cpp", "src/lognormaldist.cpp", "src/comp_group.cpp"]}
{"id": "C97", "title": "What the library writes of its objects can be read", "statement": "Writing an object to a C++ stream works for every object and gives its kind, name, counts exactly and numbers to six digits, each in its place, with matching brackets; objects with the same text are the same but for further digits.", "quantifier": "all curves, responses, measures, demand parameters, distributions, fragility functions, loss functions and groups, with any names, any doubles as parameters, and any exponential function giving doubles", "why_tests_cant": "Only one demand parameter is ever written, by main.cpp, and nobody reads it; whether texts can be told apart is a question about all pairs of objects, with names that may themselves look like such texts.", "anchors": ["src/functions.cpp", "src/relationships.cpp", "src/lognormaldist.cpp", "src/fragility.cpp", "src/loss_functions.cpp", "src/comp_group.cpp"]}
{"id": "C98", "title": "Tables in double precision give numbers on the lines between their points", "statement": "In double precision, looking up a table gives a number, not negative, for every finite argument and whatever was looked up before; outside the table the end ordinates; inside, the straight line between neighbouring points to 2^-49 of the greater ordinate; at every point but the last exactly its ordinate; tables that fall or rise give values that do, and that stay between neighbouring ordinates, but for the last bit of each interval.", "quantifier": "all tables with at least two points, arguments below 2^400 in size and increasing by at least 2^-1000, ordinates from 0 to 2^400 that are equal or 2^-1000 apart, all finite arguments, all states of the accelerator", "why_tests_cant": "Tests compare some values of one table with a tolerance; values below both neighbours, and a curve that rises again after its last point, need particular last digits; and whether the search always ends at the right interval from every remembered one is a statement about all tables.", "anchors": ["src/functions.cpp"]}
{"id": "C99", "title": "Hazard curves in double precision never rise, and are right", "statement": "In double precision the non-linear hyperbolic law gives, for every intensity that is not negative, a finite rate from 0 to the asymptotic rate; exactly the asymptotic rate at zero and nothing from the asymptotic intensity on; rates that never rise with the intensity; and the rate of the formula to 2^-48 of the asymptotic rate (times 1/alpha where the exponent alpha is below one).", "quantifier": "all asymptotic rates that are not negative, positive asymptotic intensities, exponents from 0 to 2^400 (from 2^-20 on for the error bound), all intensities that are not negative (zero, or from 2^-1000 of the asymptotic one on, for the error bound), and all logarithms and exponentials that are right to 2^-50 and monotone", "why_tests_cant": "Tests compare a few values; whether a quotient just below the asymptotic intensity can round to one, giving a division by zero, and whether rounding can make a rate rise, are questions about all pairs of neighbouring doubles.", "anchors": ["src/functions.cpp"]}
{"id": "C100", "title": "Discounted costs in double precision never fall with the years, and are right where digits remain", "statement": "In double precision the expected cost over a number of years at a rate of discount is a finite number, not negative, nothing for no years, never falling with the years or the annual cost; it is the present value to 2^-48 of the cost of all years to come, and to nearly all of its own digits.", "quantifier": "all annual costs from 0 to 2^400, rates of discount from 2^-600 to 2^400, all numbers of years an int can hold that are not negative, and all exponentials that are right to 2^-50 and monotone", "why_tests_cant": "Tests use a few rates such as 6%; that the difference 1 - exp(-rt) loses digits for small rates, that it never loses monotonicity, and how many digits remain for each rate, are statements about all rates and years.", "anchors": ["src/structure.cpp"]}
{"id": "C101", "title": "Log-log tables in double precision follow the power through their points, once they are accepted", "statement": "In double precision a log-log table can be made of any positive points with increasing arguments; its value anywhere is a positive number that does not depend on earlier calls, is the first or last ordinate outside the table, lies between the ordinates of the neighbouring points and on the power of the argument through them but for rounding, and is the ordinate at each point.", "quantifier": "all tables of two points or more with arguments and ordinates from 2^-400 to 2^400, all finite doubles as arguments, all states of the accelerator, and all logarithms and exponentials that are right to 2^-50 and monotone", "why_tests_cant": "Tests use a few short tables with well separated points and compare a few digits; that close arguments can have the same logarithm, that no exponential undoes the logarithm in every bit, and how far values can be from the power, are statements about all tables and all accurate libraries.", "anchors": ["src/functions.cpp"]}
{"id": "C102", "title": "Power laws in double precision keep their order and 49 digits", "statement": "In double precision the value of a power law a x^b at a positive number is a finite number, not negative; the factor at one, and zero at zero for positive exponents; never falling or never rising with x, as the sign of the exponent has it; and right to 49 binary digits.", "quantifier": "all factors from 0 to 2^400, all finite exponents, all positive arguments, and all power functions that are right to 2^-50, monotone in the base, and treat zero, one and overflow as C has it", "why_tests_cant": "Tests evaluate a few laws at a few arguments to a few digits; order in the last bit, the error bound for all exponents, and what happens beyond the greatest double are statements about all of them.", "anchors": ["src/functions.cpp"]}
{"id": "C103", "title": "Probabilistic functions in double precision give back what they are given", "statement": "In double precision a probabilistic function gives back, at every argument, the location and the spread its two functions have there: those of the logarithm in every bit, the mean, median and deviation but for rounding; zero for a mean of zero.", "quantifier": "all locations from 2^-60 to 2^400, deviations from 0 to 2^400, deviations of the logarithm from 0 to 32, all kinds of parameters, and all logarithms and exponentials that are right to 2^-50", "why_tests_cant": "Tests compare a few figures to a few digits, for kinds of parameters that work; how many digits survive the way through logarithms for all locations and spreads, and which of the combinations are never computed or lose the deviation, are statements about all values.", "anchors": ["src/functions.cpp", "src/lognormaldist.cpp"]}
{"id": "C104", "title": "Distributions and probabilistic functions with the same parameters agree in every bit", "statement": "For every combination of kinds of parameters a distribution can be made of, a probabilistic function whose two functions have these values somewhere gives there, in double precision, exactly the mean, deviation, median, parameters of the logarithm, probabilities and quantiles of the distribution made of the same values; the distribution gives back the parameters it was made of, but for rounding; probabilities and quantiles are never negative.", "quantifier": "all doubles as parameters (infinities and NaN included), all kinds of parameters, all arguments, and all logarithms, exponentials and lognormal distribution functions", "why_tests_cant": "The two are computed by separate code with separate formulas; tests compare a few figures to a few digits, and agreement in every bit for all parameters, or the zero mean at which they part, is a statement about all values.", "anchors": ["src/functions.cpp", "src/lognormaldist.cpp", "src/pyslatcore.cpp"]}
{"id": "C105", "title": "Ranges for recorders in double precision have the values asked for, but for rounding", "statement": "In double precision a linear range has exactly the number of values asked for, begins with the start, rises, and its i-th value is within 6 i 2^-52 of the larger end of the evenly spaced one; a stepped range whose steps end near its end has exactly these steps, likewise; a logarithmic range has the number of values asked for, each right to a 2^-39th, and rises or falls as its ends do if they are a 2^-20th apart.", "quantifier": "all ends not further than 2^900 from zero with the start below the end by at least a 1024th of the larger (linear), all steps down to a 2^-26th of the larger end (stepped), all ends from 2^-400 to 2^400 and all logarithms and exponentials right to 2^-50 (logarithmic), all counts from 2 to 65537", "why_tests_cant": "The values are sums of many rounded steps compared with a rounded limit; whether one is lost or added at the end depends on how the errors of all additions gather, for all ends and counts, of which tests try a few.", "anchors": ["src/pyslat.py"]}
