# A machine-checked model of SLAT

This directory holds a Rocq (Coq 8.16.1) model of SLAT (`/repo`, C++ and Python) and
proofs of the properties listed in `properties.jsonl`.

## Layout

| file | contents |
|---|---|
| `rocq/theories/<X>.v` | model: total Gallina functions, each citing the lines it models |
| `rocq/theories/<X>_spec.v` | small specifications used in statements, independent of the model's helpers |
| `rocq/theories/<X>_proofs*.v` | lemmas and proofs |
| `rocq/theories/<X>_props.v` | the property theorems only: statement, `exact lemma`, `Print Assumptions`, and `Example`s that meet the hypotheses |
| `seeded/LOG.jsonl` | mutation log: wrong models tried against the theorems |
| `MANIFEST.json` | property -> theorems |

Names of theorems: `C12_...` belongs to property C12; `..._refuted` is a witness that the full
statement is false of the code; `..._fails` says for which inputs it always fails;
`..._partial` is what holds although the full statement does not. Helpers that are part of a
statement are in the `_spec` files, or in the model if they are the program itself.

## Numbers

* Control-flow results about the integrator (termination, counting, tiling, failure
  reporting) are proved for an arbitrary record of operations `Num` - no law is
  assumed unless stated, so they hold for IEEE doubles as executed by any hardware.
* `F64` instantiates `Num` with the standard library's `SpecFloat` binary64 (and
  binary32 for the C++ `float` casts): computable, used for witnesses and for C17.
* `ER` instantiates it with the reals extended by +inf, -inf and NaN (one zero; no
  rounding): used for the real-analysis statements. Results stated over `ER` are about
  exact arithmetic; rounding, overflow and underflow are not modelled there.
* `ERmath` adds log, exp, sqrt and pow on `ER` as the C library computes them apart from
  rounding. The normal distribution function and its inverse (GSL) are a record with the
  laws used (range, monotone, symmetric, inverse); `normal_laws_hold` shows that the
  Gaussian integral satisfies them.

## Undefined behaviour

A C++ operation without a defined result (a lock released by another thread, an access to a
destroyed object, signed overflow, reading past the end of a vector, an endless recursion)
is a distinct outcome of the model (`Undefined`, `Ub`, a recorded violation, `bad`, or
fuel running out, which a theorem excludes or exhibits), never a default value. Exceptions
are a distinct outcome too (`Throws`).

## Property by property

What is modelled and how it is proved. Where the status is *partial* the full
statement of `properties.jsonl` is false of the code (a `_refuted` theorem gives the
witness) and the `_partial` theorems say what does hold; the notes are those of `MANIFEST.json`.

### C01. Caching is transparent to a single-threaded user

Proved: model in `Cache.v`, `CVal.v`. State machine of one thread; refinement to the pure function by induction over the history of calls and clears.

Result: Calculations that respect the equality of keys and do not throw.

### C02. A cached value is computed at most once between clears, under every schedule

Proved: model in `Cache.v`. Small-step interleaving of any number of threads, one step per access or lock operation. Inductive invariant: for each key at most one of "calculating" and "remembered" since the last clear.

Result: Holds with clears too: at most once per key since the last clear.

### C03. Every concurrent caller of a cached function gets the right answer and the locking is sound

Proved: model in `Cache.v`. Same semantics; lock records are heap cells with an owner, so that wrong releases and uses of destroyed records are recorded violations. Inductive invariant: no violation, every remembered or waiting result is the function's.

Result: Sequentially consistent memory; ClearCache is atomic.

### C04. Concurrent cached-function calls never deadlock

Proved: model in `Cache.v`. Some thread can always step, and a measure (18 per operation) decreases with every step.

Result: Explicit bound: 18 steps per operation.

### C05. After a clear, cached functions never serve results from before it

Partial: model in `Cache.v`, `CVal.v`. Witness schedules; invariant for histories in which no clear overlaps a call.

Result: False: a clear during a call lets old or never-calculated values through. Proved when no clear meets a call in progress (always so with one thread).

### C06. Concurrent users of a cached value wait for and share one calculation

Partial: model in `CVal.v`. Same technique for cached values; witness schedules for what goes wrong after the first clear.

Result: False: waiting lock released by non-holders, callers after a clear do not wait. Proved: one calculation per clear and main-lock ownership always; right answers and progress before the first clear.

### C07. Clear_Caches clears exactly the live caches

Proved: model in `Registry.v`. Map from live caches to contents; induction over histories of construction, destruction and clearing, for every order of traversal.

Result: Once a cache was constructed. C07_first_refuted: before that, Clear_Caches uses a lock nobody initialised.

### C08. A calculation that throws leaves the cache usable

Partial: model in `Cache.v`, `CVal.v`. Witness: later callers of the argument wait for ever. Invariant over all schedules: only callers of an argument whose calculation threw can be stuck.

Result: False: later calls for the same argument block for ever. Proved: only callers of an argument that threw can be left waiting.

### C09. Change notification reaches each registered client exactly once

Proved: model in `Replaceable.v`. Histories of registration and removal; invariant relating the callback map to the registered clients.

Result: All registration/removal/notification histories of one object; clients register when unregistered and leave when registered, as constructors and destructors do. One thread; the id counter is unbounded.

### C10. Replacing an object hands every client over to the replacement

Proved: model in `Replaceable.v`. Induction over chains of replacements.

Result: Any chain of distinct objects not mentioned before; the clients are those the history says use the object. The history before the chain is careful (no registration with an object that already replaced another): see C11.

### C11. Clients of a replacement do not interfere with one another

Partial: model in `Replaceable.v`. Witness histories (the id counter is not carried over); invariant for careful histories.

Result: False of the code: the id counter is not carried over, so newcomers can displace carried-over clients and leaving clients can unregister newcomers; clients the replacement already had are overwritten; self-replacement loses all. Holds for careful histories.

### C12. Demand rates always reflect the current hazard and response functions

Partial: model in `Graph.v`, `Script.v`. Heap of all shared objects with every cache a field "remembered or nothing"; calculations are arbitrary functions of what the C++ reads, which may ask for other cached figures. Invariant over all histories of API calls: whatever is remembered equals what would be calculated from the current graph. Witness histories for stale ones.

Result: False: callbacks lost on replacement (C11, C16) leave remembered rates in place. Proved for all careful histories: no registration with an object that itself replaced another, no replacement by an object in use, no replacement of a compound second function, settings unchanged after the first query.

### C13. Component-group results always reflect current inputs

Partial: model in `Graph.v`. As C12.

Result: As C12, for all remembered figures of a group.

### C14. The annual cost of a structure always reflects its current contents

Partial: model in `Graph.v`. As C12; four witness histories.

Result: False for the annual cost after replacing an input of a group, removing a group, or changing rebuild or demolition cost. Proved: it follows additions, replaced groups, and everything about the measure; the total cost given an intensity follows everything (careful histories).

### C15. Collapse and demolition rates always reflect the current hazard and fragilities

Partial: model in `Graph.v`. As C12.

Result: False after replacing the hazard function (both rates) and, for the demolition rate, after changing the collapse distribution. Proved when none of that happened since the rate was last cleared.

### C16. Replacing either response function of a compound demand parameter replaces that one

Partial: model in `Graph.v`. Witness; induction over repeated replacement for the first function.

Result: False for the second function: its replacement overwrites the first. Proved for the first, repeatedly.

### C17. Integration settings are always valid

Proved: model in `Maq.v`. State machine of the settings; invariant over histories, in binary64.

Result: All histories of settings calls, in binary64.

### C18. Integration always terminates

Proved: model in `Maq.v`. Searches and MAQ as functions with fuel; a fuel computed from the limits is proved sufficient by decreasing measures, for every arithmetic whose order is irreflexive in the sense stated.

Result: Any arithmetic with x < y excluding y <= x (binary64 and the extended reals both qualify).

### C19. The evaluation limit bounds, and the result reports, the integrand evaluations

Partial: model in `Maq.v`. The model returns the list of evaluations made; counting lemmas by induction over the loops. Witness in binary64.

Result: The statement is false: each bisection calls the integrand twice but is counted once, and the limit is tested only after the fact. The exact relation between calls made, evaluations reported and limits is proved instead.

### C20. Each search stays within the search limit

Partial: model in `Maq.v`. As C19, per search method.

Result: False for four methods (the inner loops do not test the limit); the reported count is proved exact and the true bound of each method is proved. The scattered search does satisfy the statement.

### C21. A search result brackets something worth integrating

Partial: model in `Maq.v`. Loop invariants of each search over the extended reals and over binary64 doubles with all roundings (through Flocq); witness in binary64.

Result: False of the directed search, which settles for any positive value. Proved in exact arithmetic for all methods with what each one promises, and in double precision with every rounding.

### C22. A search finds every feature wide enough for its limit

Partial: model in `Maq.v`. Dyadic grids: completeness of the breadth-first searches by induction over the levels; exactness of the arithmetic below 2^24; witnesses for the methods that skip.

Result: False of the directed (default), scattered and low-first searches, with witnesses. Proved for the binary and reverse binary searches, and for low-first in the upper half, in exact arithmetic.

### C23. Integration failure is always visible

Partial: model in `Maq.v`. Case analysis of MAQ for every arithmetic; finiteness by induction over the tiles; magnitudes in double precision bounded through Flocq; witnesses.

Result: False: opposite infinities give a successful NaN. Failure implies NaN and flag for every arithmetic; success is finite for finite integrands and a number for non-negative ones in exact arithmetic. In double precision finite non-negative integrands can still give a successful NaN (witness under the default settings); integrands below 2^1000 cannot.

### C24. A successful integration covers its range exactly once

Proved: model in `Maq.v`. Invariant of the adaptive loop: the areas tile the range, for every arithmetic; properness over the extended reals.

Result: Every arithmetic; properness of the tiles (hence no overlap) in exact arithmetic.

### C25. Polynomials up to degree five are integrated exactly

Proved: model in `Maq.v`. Tiling, Boole's rule and polynomial antiderivatives (Coquelicot's integral in the statement).

Result: Exact arithmetic. The degree-three part needs room for four evaluations after the search.

### C26. Integrals respect bounds and sign

Proved: model in `Maq.v`. Tiling and positivity of the weights.

Result: Exact arithmetic.

### C27. Integration over a range scales with the integrand

Proved: model in `Maq.v`. Simulation of two runs whose quantities are in constant ratio.

Result: Exact arithmetic; same range found for both integrands.

### C28. Integration statistics account for every call

Partial: model in `Maq.v`. Statistics as a fold over the results since the last reset; witness.

Result: False as regards the maxima, which failing calls also raise. All counters, totals and maxima are proved to be the stated function of the results since the last reset.

### C29. Integration statistics are correct under concurrency

Partial: model in `Stats_conc.v`. Each integration is a list of atomic actions; all interleavings; sums by commutation, maxima by an invariant; witness schedule.

Result: False as regards the maxima (lost update). Counters and totals proved equal to the sequential ones in every interleaving; maxima never too large.

### C30. Lognormal parameters round-trip

Proved: model in `Lognormal.v`. Algebra over the extended reals with er_log, er_exp and er_sqrt.

Result: Exact arithmetic: rounding, overflow and underflow are not modelled.

### C31. Lognormal probabilities are probabilities

Partial: model in `Lognormal.v`. Case analysis over any normal distribution with the stated laws; witnesses.

Result: False without spread at the value itself, at negative values and for a certain zero at zero (NaN). Proved everywhere else, over any normal distribution function; normal_laws_hold shows that the Gaussian one qualifies.

### C32. Scaling a cost scales its mean and keeps its dispersion

Proved: model in `Lognormal.v`. Algebra.

Result: Exact arithmetic.

### C33. Adding costs adds means and variances, in any order

Proved: model in `Lognormal.v`. Algebra; induction over lists and permutations.

Result: Exact arithmetic; the result is the same distribution, not only the same moments.

### C34. Weighted combination of costs is the mixture

Proved: model in `Lognormal.v`. Algebra; induction over lists.

Result: Exact arithmetic.

### C35. Damage-state probabilities form a distribution

Partial: model in `Damage.v`. Telescoping sums over lists of states; exact characterisation; witnesses.

Result: False: curves of different spread cross. Proved exactly when it holds; in full for states of one spread.

### C36. Ill-ordered fragility functions are rejected

Partial: model in `Damage.v`. Induction over the list of states.

Result: False if a state has no median (NaN). Proved otherwise.

### C37. Expected repair cost is the count times the probability-weighted unit cost

Proved: model in `Damage.v`. Algebra over lists of states.

Result: Exact arithmetic. Counts that are not negative; for a negative count the mean is NaN.

### C38. Bi-level unit costs interpolate between their two levels

Partial: model in `Damage.v`. Machine integers with explicit overflow; algebra.

Result: False: int overflow, and thresholds not in order. Proved otherwise; undefined exactly if the thresholds are further apart than int allows and the count is between them.

### C39. Loss functions with the wrong number of states are rejected

Proved: model in `Damage.v`. Case analysis with explicit exceptions.

### C40. The three fates have probabilities that add up to one

Partial: model in `Damage.v`. Algebra; exact characterisation; witness.

Result: False: demolition gets a negative probability where the collapse curve is above the demolition curve. Proved exactly when it holds.

### C41. Interpolated functions pass through their points and never overshoot

Partial: model in `Functions.v`. GSL's linear interpolation with its accelerator, modelled explicitly; invariants over histories of evaluations.

Result: Linear: proved. Log-log: false for tables with a zero value (not a number even at a given point), proved for positive tables.

### C42. Lognormal response functions accept every advertised parameter combination

Partial: model in `Functions.v`. LogNormalFn's mutually recursive closures as a call graph with fuel; divergence means that no fuel suffices.

Result: False: a median or mean logarithm with the standard deviation of X recurses for ever. Proved for the other four combinations.

### C43. A component group with no components costs nothing, and integration failure is not mistaken for zero cost

Partial: model in `Group.v`. Composition of the integrator's theorems with the integrands; witness.

Result: No components: proved. That a reported zero is the mean cost is false: a failed integration is reported as zero. Proved: other values come from a successful integration; a successful zero means the integrand is zero at every sampled point; rates are NaN on failure.

### C44. A structure only ever mixes groups of one intensity measure

Proved: model in `Graph.v`. Invariant over histories.

Result: All histories without replacements (with them: C58).

### C45. Structure contents behave as a list with removal of the first match

Proved: model in `Graph.v`. Invariant over histories, against a list specification.

Result: All histories without replacements.

### C46. Total cost is the probability-weighted cost over fates

Partial: model in `Group.v`. Algebra over the fates; witnesses.

Result: False for structures without groups, unset demolition cost, crossing fate curves, and by rounding. Proved with exact arithmetic wherever the fate probabilities are probabilities.

### C47. Discounted expected cost is monotone and consistent

Partial: model in `Group.v`. Algebra; monotonicity of the discount; the value at rate zero.

Result: At rate zero the value is NaN, for every structure. Everything else proved for rates other than zero.

### C48. Grouping of components loses and duplicates nothing

Proved: model in `Group.v`. List algorithm; permutation and sortedness by induction.

### C49. A compound demand parameter uses the response with the larger mean

Proved: model in `Group.v`. Case analysis.

Result: The second theorem says what happens where a mean is not a number.

### C50. Ranges generated for recorders have the advertised points

Partial: model in `Ranges.v`. Induction over the steps, for every arithmetic, in binary64 (rounding witness) and in exact arithmetic.

Result: False for falling and constant linear ranges, single logarithmic values, ends not hit by the steps, and by rounding. Proved in exact arithmetic for rising linear ranges, logarithmic ranges of two or more values, and stepped ranges.

### C51. Diagnostic context is properly nested

Partial: model in `Context.v`. Threads as a tree of per-thread stacks; invariant over all interleavings; witnesses.

Result: False when team sizes grow between regions (vector accessed beyond its end) and when a serialised region contains a parallel one (contexts shared). Proved for every interleaving when team sizes depend on the depth only.

### C52. Every command of the scripting language leaves the interpreter's stacks clean

Partial: model in `Interp.v`. Parse trees of the grammar; the listener as a stack machine driven by the walk; simulation, by induction on trees, against a meaning that has no stacks; completeness of the abstract syntax for all derivable trees; witnesses.

Result: False for piecewise functions, functions named by variables, iterations not given as a literal, dictionaries, and annual costs. Proved for every script without these, whatever the calls return or raise, and that every derivable tree is one of the abstract syntax.

### C53. Redefinition in a script rewires every user of the old definition

Partial: model in `Script.v`, `Graph.v`. Scripts as histories of the object graph with dictionaries; the theorems about C12-C16 carried over.

Result: False after a further object was defined on a redefined one, and for compound demand parameters, which keep the functions they were made with. Proved for scripts that do neither, with the resulting figures.

### C54. Hazard curves are non-negative, non-increasing and clipped as documented

Partial: model in `Functions.v`. Analysis of the hazard curve over the extended reals.

Result: False: the announced clipping to one is missing. Non-negative, non-increasing, at most the asymptotic rate, zero from the asymptote on: proved.

### C55. No limit the settings API accepts makes an integration misbehave

Partial: model in `Maq.v`. Witnesses; C55_accepted_partial from the termination proof of C18. C55_exactly_partial: the subdividing searches use powers of two, so the border is found by comparing powers; the refinement of the directed search narrows its range in double precision until it stops, by an error bound for rounded midpoints, even when its counter wraps.

Result: The full statement is false: int overflow for large search limits, and an endless loop for an evaluation limit of 2^32-1. Proved: exactly which accepted limits make every integration return, for each search method (all search limits for the scattered and directed searches, up to 2^30 for the binary ones, two ranges for the low-first one; evaluation limits below 2^32-1), and what happens with every other limit.

### C56. Figures reflect the integration settings in force

Partial: model in `Graph.v`. As C12, with the settings part of the state.

Result: False: remembered figures survive a change of the settings. Proved for demand rates and group figures if all caches are cleared after the change.

### C57. No callback of a destroyed object runs

Partial: model in `Graph.v`. Invariant: every registered callback belongs to a live object; witness.

Result: False for structures, whose destructor is empty. Proved for careful histories that keep structures.

### C58. One intensity measure per structure, also under replacement

Partial: model in `Graph.v`. Invariant over histories with replacements; witness.

Result: False: the check is made on addition only. Proved for replacements that keep each demand parameter and group on its measure.

### C59. Interpolated functions may be evaluated by several threads at once

Partial: model in `Functions.v`. Interleaving of evaluations sharing one accelerator; witness; invariant.

Result: False: the shared accelerator index is read again after the search. Proved: the index is always within the table; a thread alone gets the right value.

### C60. Function definitions with unsuitable parameters are refused

Partial: model in `Functions.v`. Case analysis of the factories with explicit undefined outcomes.

Result: False: short parameter lists are read past their end, bad tables give null functions or end the program. Proved: suitable parameters give the right function, wrong kinds are refused.

### C61. Delays are calculated like costs

Partial: model in `Group.v`. Algebra; witness.

Result: False for two components: the spread of the delay uses the mean per component but the standard deviation of all. Proved: equal means for every count, equal spreads for one component.

### C62. The cost distribution of a group has the integrated mean and variance

Proved: model in `Group.v`. Algebra over the integration results.

### C63. Output and data files are where the script says

Partial: model in `Paths.v`. posixpath's functions on lists of characters; induction over strings.

Result: The file used is the one meant for every name. Completing twice is false of last components made of dots only; proved for all others.

### C64. Recorders print the tables described in the manual

Partial: model in `Recorder.v`. Every recorder type against a table specification with the library's figures as a record of arbitrary answers.

Result: False for probabilistic functions, deaggregated costs, losses by state, most columns of demand parameters, medians and means of logarithms of costs by part, chosen damage states, long names in pdf tables. Proved for all tables otherwise.

### C65. Tables can be read back

Partial: model in `Recorder.v`. Induction over columns and characters.

Result: False for headings with long names; proved for every row, and for headings exactly when names are short.

### C66. Analyze leaves every recorder's table in its file

Partial: model in `Analyze.v`, `Paths.v`. Files as lists of lines; induction over registered recorders.

Result: False for recorders without a file name (exception) and for two naming the same file. Proved for all others, with failures and repetition.

### C67. Recorders report the definitions in force

Partial: model in `Target.v`, `Script.v`. Scripts of C53 with recorders; invariant.

Result: False if the name is defined again after the recorder was: it keeps the old object. Proved for all careful scripts otherwise, and that this is the only case.

### C68. Log messages go where they were last told to

Partial: model in `Log.v`. State machine of sinks; induction over histories.

Result: False once switched off: later switching on adds a copy each time and cannot be undone; without any sink messages go to standard output. Proved exactly how many copies go where for every history.

### C69. Imported functions give the distributions in their files

Partial: model in `Import.v`, `Functions.v`. Rows of numbers against the mean and deviation of the surviving responses; C41 for the values between rows.

Result: Proved for files of two or more rows with two or more responses without collapse in each, in increasing order, without rounding. False otherwise: a single row raises, one surviving response gives NaN in the whole interval around it, disorder ends the program. The share of collapses is computed and dropped.

### C70. Strings in scripts stand for what the manual says

Partial: model in `Literal.v`, `Interp.v`. Longest match of the token and the preprocessing; induction over characters; exact characterisation.

Result: Proved exactly for which strings it holds: those that neither begin nor end with a quote character, and, if single-quoted and ending in a backslash, have no single quote after them. False of the others, among them an example in the manual.

### C71. Mistakes in definitions reach the script as exceptions

Partial: model in `Define.v`, `Damage.v`, `Group.v`, `Maq.v`. Case analysis of every constructor and request; the outcome of a loss does not depend on the demand, so that an integration over one that throws meets it at its second point.

Result: False: the bindings catch no C++ exception, so that empty or ill-ordered fragility functions, empty loss functions, requests to groups whose loss function has another number of states, and groups of another intensity measure end the process. Proved for every definition and request which of returning, raising, ending the process and overflowing happens.

### C72. Fragility and loss functions have the distributions given

Partial: model in `Define.v`, `Lognormal.v`. The round trip of C30 for every element of the lists; a zero location is treated as missing.

Result: Proved with both options given and supported and, for losses, no location zero. False otherwise: omitted options always raise an exception, unsupported combinations are accepted and make every mean cost given an intensity zero, and a loss of location zero is not a distribution.

### C73. States that cost nothing and groups without delays do no harm

Partial: model in `Define.v`, `Damage.v`, `Group.v`, `Maq.v`. Not-a-number propagates through the weighted sum by induction over the states; an integrand that is not a number makes every search return the whole range and the integration fail at its first point.

Result: Proved for groups without a zero among their unit costs. With one, the mean cost given every demand is not a number and that given every intensity is reported as zero; without a delay function delays are not numbers, or the request ends the process.

### C74. Every script command acts on the objects it names, and on nothing else

Partial: model in `Script.v`, `Graph.v`. A relation listing what each command should do to names, contents, pointers and lists, with frame conditions; refuted by a group with an unknown delay function, which is made without; for all else proved by an invariant weaker than that of C53 (kinds of pointers and clients, allocation, completeness), which holds in all scripts, careful or not.

Result: False of a component group whose delay function is unknown: the interpreter looks the name up, finds nothing, and the group is made without delays. Proved: what such a definition makes, and that every other command of every script (objects being freed only once no name leads to them, as in Python) does what the relation says.

### C75. How a script is laid out does not matter

Partial: model in `Lexer.v`. The rules of the lexer as regular expressions followed by derivatives; longest match, first rule; their languages against a description of words; induction over layouts.

Result: Proved for all texts in which the keyword loglog has a blank before it and no other word beginning with those letters has. The blank belongs to the keyword: after a tab or a line end loglog is a name.

### C76. Numbers may be written in the usual ways

Partial: model in `Lexer.v`, `Interp.v`. Which rule wins on a numeral; the value by induction over digits.

Result: Proved for numbers that do not begin with their point or have a sign. The others, such as .5, are read as names.

### C77. Python expressions are taken whole

Partial: model in `Lexer.v`. The stack of modes; induction over balanced expressions.

Result: Proved for expressions without parentheses inside quotes, which are counted although Python does not.

### C78. Nothing in a script is passed over

Partial: model in `Lexer.v`. Invariant of the modes; induction over the text.

Result: Reading accounts for every character, but what is reported as no word is left out and the rest is executed.

### C79. Annual figures accumulate conditional figures over the hazard

Proved: model in `Annual.v`, `Group.v`. Each figure unfolded to one integration; the integrand is described point by point without the helpers of the model.

Result: Exact arithmetic; numerical derivatives are arbitrary functions.

### C80. The tolerance bounds the error

Partial: model in `Maq.v`. A polynomial that vanishes at the five points looked at refutes it; comparison with the primitive of a polynomial on each accepted panel; Taylor with remainder; change of variable.

Result: The error can exceed any bound; proved instead: bounds on it from how far the integrand is from a polynomial of degree five, or from its sixth derivative.

### C81. A script does what its text spells

Partial: model in `Program.v`. The trees of each construct are a prefix code given the words which cannot follow it, so that words determine the tree; every abstract script whose words are words is derived by the grammar; with C75 and C52.

Result: Parsing and layout are proved for all scripts; what the run does is proved for sound commands (as C52) and refuted for others.

### C82. Nested and parallel calculations give the sequential results

Proved: model in `Nested.v`. Any number of caches of both kinds, whose calculations are programs of questions and parallel regions. Invariant: each cache satisfies the invariants of `Cache.v` and `CVal.v`, each task has a fixed result determined by a semantics without caches and threads.

Result: Calculations are arbitrary programs of questions and parallel regions; clearing and exceptions are treated for a single cache (C05, C06, C08).

### C83. Nested and parallel calculations finish

Partial: model in `Nested.v`. A potential decreases with each step; among waiting tasks, one of least height can go on; heights for the caches of SLAT; two caches asking each other get stuck.

Result: Proved for calculations that do not ask in circles, as is proved of those of SLAT; refuted in general.

### C84. A list of arguments gives the list of results

Partial: model in `Nested.v`, `Bulk.v`. C82 for parallel loops over cached functions; a loop storing its results in any order; the dispatch of the methods to the functions of the bindings.

Result: Proved for all methods but MeanLn, Median and SD of edp, which raise an exception for every list.

### C85. The slopes used in figures are the derivatives of the curves

Partial: model in `Deriv.v`. Explicit values of the GSL rules on polynomials; Taylor with remainder; for rounding, the gap between neighbouring doubles by way of Flocq.

Result: In double precision the slope is zero at every argument of 2^28 or more. Proved without rounding: exact for polynomials of degree four and tables, with an error bound for smooth curves, and what it is at corners and ends.

### C86. In double precision, integrals of non-negative integrands are never negative

Partial: model in `Maq.v`. Induction over the tiles with the invariant that accepted sums are not negative, in double precision through Flocq (ranges are ordered doubles, Simpson sums of non-negative doubles are non-negative or NaN); witness for tolerances above 1.

Result: False for tolerances above 1, which are accepted (witness: minus infinity with tolerance 100). Proved in double precision for all integrands, methods, limits and tolerances up to 1.

### C87. What an object says of its inputs is what it uses

Partial: model in `Wrapper.v`, `Script.v`, `Graph.v`. The attributes of the Python objects are kept apart from the pointers of the library; invariant over careful scripts: pointer and name of the recorded input move together; witnesses.

Result: False after redefinitions, even in careful scripts: the recorder of damage states by demand asks the old fragility function; the measure named at the head of a group is the old one if its demand parameter was moved to another measure; a function named may since mean another. Proved for all careful scripts: the inputs used are the current meanings of the names of the inputs recorded (for functions, the recorded objects themselves); an object remembers, part by part, exactly what it was given; the recorded input is the one used exactly until its name is defined again; measures named by groups and structures are right if no demand parameter is moved.

### C88. A group can be added to a structure exactly if it depends on the structure's measure

Partial: model in `Wrapper.v`, `Script.v`, `Graph.v`. The invariants of C87, and: the objects measures are recorded by are the first definitions of their names, so that equal names mean equal objects; witnesses.

Result: False: Python compares its own objects after the library has added the group, and raises although the measures agree when a demand parameter was moved to another measure or an emptied structure is filled again, or the measure was defined again and a demand parameter defined on the new one; the group stays added. Proved for careful scripts in which no demand parameter is moved: success exactly if the structure is empty or has the measure of the group, otherwise the process ends with nothing changed.

### C89. Printing a definition shows it

Partial: model in `Describe.v`. The methods __str__ with format transcribed, values shown as Python does, floats by a parameter of which only injectivity and the characters used are assumed; unambiguous reading is proved by cutting descriptions from the left, by induction on values; witnesses and universal failures for what is not shown.

Result: False of deterministic functions (the format applies to the second half of the text only: type and parameters are never shown), of collapse distributions (only an address is shown), of compound demand parameters (the second is not shown) and of loss functions named None. Proved for everything else: the exact text, and that it determines the object; kind and name are always shown; printing never fails.

### C90. Printed text goes where it should

Partial: model in `Describe.v`, `Paths.v`. Print commands as functions on the terminal and a map of files; induction over the sequence against a specification by the last fresh start of each file.

Result: False of titles (an empty line comes first) and of file names: print opens the name as it is, recorders add the output directory and an extension. Proved: terminal and files hold exactly what was printed to them, for every sequence of commands; the same file is meant exactly as far as the name has an extension, and a directory if an output directory is set.

### C91. Objects are found by name and by what they wrap

Partial: model in `Names.v`, `Wrapper.v`. The dictionaries of definitions as association lists kept in the order of insertion, what is handed to replace as a list of pairs; an invariant over all histories against a specification reading the list of accepted definitions; for structures, an invariant over careful scripts that every pointer to something replaceable leads to the current meaning of a name.

Result: Proved for every history: a name gives the latest accepted definition since the last ClearCaches; a failed definition changes no lookup and hands nothing over; a successful one hands the users of the previous definition over once. False with placeholders (fragility functions from a database, bare fragility and loss functions): defining one over another definition ends the process, nothing can be defined over one, and looking up library objects fails past one; false of nameless demand parameters, which are found under None; and a structure can keep a group no name stands for, if something defined twice is used again. Proved without placeholders, of the other classes, and of careful scripts.

### C92. Every method of the Python classes gives the figure it names

Partial: model in `Methods.v`. The methods as lookups by name in a table of what the bindings declare, with the types of parameters and the function of the library asked; conversion of arguments as in the generated wrappers. The documentation is a separate table; by cases over the methods, for all arguments.

Result: Proved that no method ever returns another figure than the one documented. False that all return it: probabilistic functions have no figures, as their class is not declared in the bindings, and groups no cost over years; years must be integers of Python; distributions that structures return are not accepted back; deaggregated costs come unwrapped; probabilities of collapse are documented as functions and must be distributions; a simple demand parameter has no hint for plotting until one is set. Proved exactly when these happen.

### C93. The report on integrations can be read

Partial: model in `Report.v`. The report as text, with printing of integers and of doubles by the rules of `%g` at six digits; programs as sequences of settings, integrations, resets and requests. What a report says is read from it by separate relations for digits, numbers, decimals, lines and labels; rounding to six digits proved over the reals for every positive double; invariant over programs.

Result: Proved for all programs whose tolerances are doubles: counters, limits and method exactly, tolerance to six digits, and that asking changes nothing. False that settings can be told from the report: tolerances differing in the seventh digit look the same; proved that nothing else can be mistaken.

### C94. In double precision total costs are numbers

Partial: model in `Totals.v`. Probabilities of the three fates, total cost, cost with collapse, weighted and plain sums, the annual deviation and the distribution made of a mean and a deviation, each operation rounded. Forward error analysis over the reals (relative and underflow errors carried through lists by induction), compared with means and variances of mixtures; the logarithm is a parameter with laws that the rounded logarithm is shown to meet; witness for the negative variance.

Result: False of the total cost: with collapse nearly certain rounding makes the variance negative, and neither deviation nor mean of the distribution is a number. Proved: probabilities of the fates, mean of the total cost, cost with collapse, weighted and plain sums and the annual deviation are numbers and right to stated errors; the deviation of the total cost is unless the variance is below 2^-47 of the expected square.

### C95. The comparison of results notices differences

Partial: model in `Regress.v`. The script as a function of the lines of both files, with the numbers texts stand for as gawk reads them, exactly. Numbers, words and the fields of a line are specified by separate relations, and the reading proved to agree with them; invariant that a return value once set stays set; witnesses for what is let through.

Result: False: lines and fields beyond those expected, an empty file of results, and a zero in place of a word are let through, and a file with a field such as a lone dash fails against itself. Proved: wherever both files have a field numbers are close and words equal; what is expected and missing is noticed unless it is zero; files of numbers and words that agree compare without error; the script succeeds exactly if names agree and all comparisons succeed.

### C96. A group's figures in double precision are numbers, and right

Partial: model in `Spread.v`. Damage states, losses with two levels, the mean and deviation of a distribution, scaling, the loss at a demand and the distribution at an intensity, each operation rounded; continues Totals.v. Forward error analysis over the reals; monotonicity of rounding for the two levels; logarithm and exponential are parameters with laws that the rounded functions are shown to meet; underflow of a square and a rounding to one for the refutations.

Result: Proved: chances of damage states, losses with two levels, means given back, scaling, and the loss of a group at a demand, mean and dispersion, to stated errors. False of two parts: a deviation below 2^-27 of its mean is lost altogether, and at an intensity a mean below 2^-538 has no finite dispersion, as its square is zero; proved that the deviation is given back to 2^-34 of the expected square, and the dispersion at an intensity to 2^-37 for means from 2^-60 on.

### C97. What the library writes of its objects can be read

Partial: model in `Shown.v`. The output operators and ToString, as lists of characters, with numbers as in Report.v. The place and the value of everything shown is specified by relations of its own; texts are prefix codes, from which it follows that they determine what they show, the name of a group being found from the last capital E; counting brackets.

Result: Proved: kinds, names, counts and numbers stand where they should, numbers to five digits; texts of groups determine name and count exactly and all numbers shown to five digits, whatever the names. False: a group without a loss function for costs or delays cannot be written (an empty pointer is followed); tables, what the curves of a response stand for, second responses, collapse, demolition and losses with two levels are not shown; the text of every demand parameter leaves a bracket open.

### C98. Tables in double precision give numbers on the lines between their points

Partial: model in `Tabled.v`. The model of C41 once more with the operations of binary64. The search is shown to end at the interval of the argument from every state of the accelerator, by induction on its fuel, and there is only one. The part of the interval is between 0 and 1, as rounding is monotone, and right to three units in the last place; from there as for the losses with two levels (C96). For arguments before the last 2^-50 of an interval the part is below one by enough to make up for the rounding of the difference of ordinates. The witnesses are tables of two points with ordinates whose difference is a tie, or lies between two doubles.

Result: Proved: a number for every argument and history, end values outside, the line between points to 2^-49. False at the last point, by rounding: its ordinate is not given back, the value may be below both ordinates, and a falling table may rise after it, a rising one fall. Proved: exact at all other points; between the ordinates, and falling or rising with the table, from any argument before the last 2^-50 of its interval, and within an interval.

### C99. Hazard curves in double precision never rise, and are right

Partial: model in `Hyperbola.v`. The model of C54 with the operations of binary64; logarithm and exponential are any that are accurate and monotone, and correctly rounded ones are shown to be such. A quotient of two different doubles never rounds to one, by the distance to the next double; so the logarithm is below zero, and the division is one of finite numbers. Every operation is monotone, hence the curve. For the error, the exponent is near the right one to a relative error that grows as the exponent itself, which the exponential makes up for; exponents beyond 700 give next to nothing either way.

Result: Proved: rates are numbers from 0 to the asymptotic rate, exact at both ends, and never rise. That they are the rates of the formula is false for intensities below 2^-1080 of the asymptotic one, which count as none; proved, to 2^-48 of the asymptotic rate, from 2^-1000 of it on and at zero, for exponents alpha from one on and asymptotic rates from 2^-1000 on, and to 1/alpha times that for alpha from 2^-20 to one. Not covered: the error for alpha below 2^-20.

### C100. Discounted costs in double precision never fall with the years, and are right where digits remain

Partial: model in `Discount.v`. The model of C47 with the operations of binary64; the exponential is any that is accurate and monotone (as for C99). Monotonicity of rounding for the order; forward error analysis for the value, the exponent being off by a relative error that the exponential makes up for; the relative error follows from a lower bound of 1 - exp(-u). The loss of all digits is proved for exponentials rounded correctly, by the distance from one to the next double below.

Result: Proved: finite, not negative, never falling with years or annual cost, and right to 2^-48 of annual cost over rate. That it is right to nearly all of its own digits is false: where rate times years is below 2^-55 the cost is zero, and for a rate of zero not a number. Proved instead: 47 binary digits, less one for each that rate times years is below one.

### C101. Log-log tables in double precision follow the power through their points, once they are accepted

Partial: model in `Loglog.v`. The model of C41 with the operations of binary64, the check of the GSL that arguments increase, and any accurate, monotone logarithm and exponential. Forward error analysis in logarithms. The refutations hold for every such logarithm, by counting: below 2^-39 there are more doubles than doubles that can be their logarithms, so two neighbours share one.

Result: Proved, for every table that can be made: values are positive numbers, do not depend on earlier calls, are the outer ordinates in every bit outside the table, and lie between the neighbouring ordinates to 2^-39; and, for arguments 2^-38 apart, on the power through them to 2^-38 times one plus the slope. That every table can be made is false: two arguments next to each other can have the same logarithm, and the GSL then ends the program; proved for arguments 2^-38 apart. That values at the points are the ordinates is false in the last bits; proved to 2^-39.

### C102. Power laws in double precision keep their order and 49 digits

Partial: model in `Power.v`. The power law of C54 with the operations of binary64; the power function is any that obeys the laws listed in the specification, of which one that rounds correctly is shown to be an instance. Monotonicity of rounding for the order, forward error analysis for the value.

Result: That every value is a number is false: where the power is beyond the greatest double the value is infinite, and not a number for a factor of zero. Proved where the power is from 2^-600 to 2^500: finite, not negative, in order, and right to 49 binary digits; the values at zero and one.

### C103. Probabilistic functions in double precision give back what they are given

Partial: model in `Probfn.v`. The members of C42 with the operations of binary64, calling each other with fuel as there; the closed form of each combination of kinds, and then the error analysis of C96 and C101. The median that does not come back is found by counting, as for C101.

Result: Proved: parameters of the logarithm in every bit, means and medians to 2^-39, variances to 2^-34 of the second moment, zero for a mean of zero with a deviation of the logarithm. False: some medians do not come back exactly; deviations below 2^-27 of the mean come back as none; a mean and a deviation of zero give no numbers; with a deviation but no mean the calls never end.

### C104. Distributions and probabilistic functions with the same parameters agree in every bit

Partial: model in `Make.v`. The factory of distributions with the operations of binary64, beside the members of C103; for each combination of kinds both are unfolded to the same operations, whatever the functions of the libraries.

Result: Proved: all figures agree in every bit unless the mean and the deviation are given and the mean is zero; distributions give back what they are made of, as functions do (C103); probabilities and quantiles are never negative. Refuted: for a mean and a deviation of zero, the mean of the distribution is zero and that of the function is not a number. For kinds that make no distribution, the distribution has no numbers and the function never returns.

### C105. Ranges for recorders in double precision have the values asked for, but for rounding

Proved: model in `Ranges.v`, `Span.v`. The generators of C50 with the operations of binary64. The error of the accumulated value is bounded by induction over the additions; it stays below half a step, so that the loop ends after the last value asked for and not before. Logarithmic ranges: the error analysis of C101 and C103.

Result: For the ranges in the quantifier, of which linear and stepped ones rise. Outside it: linear ranges that fall are empty and those with equal ends never end (C105_falling_fails); C50_rounding_refuted shows a narrower range that never ends. The exception math.exp raises on overflow is left out; within these bounds nothing overflows.


## What is modelled, and what is not

| source | modelled in | left out |
|---|---|---|
| `caching.h`, `caching.cpp` | `Cache.v`, `CVal.v`, `Nested.v`, `Registry.v` | counters of hits and calls; names; memory weaker than sequentially consistent; the data race of `ClearCache` with a caller is given the reading that the clear is atomic |
| `replaceable.h` | `Replaceable.v`, `Graph.v` | its lock; overflow of the id counter |
| `context.cpp`, `context.h` | `Context.v` | `DumpContext` (never called); initialisation |
| `maq.cpp`, `maq.h` | `Maq.v`, `Stats_conc.v`, `Report.v` | logging; exceptions from integrands |
| `lognormaldist.cpp`, `.h` | `Lognormal.v`, `Totals.v`, `Spread.v`, `Make.v` (in double precision), `Shown.v` (output) | - |
| `fragility.cpp`, `loss_functions.cpp` and headers | `Damage.v`, `Spread.v` (in double precision), `Shown.v` (output) | the output operator of `BiLevelLossFn`, which shows addresses |
| `functions.cpp`, `.h` | `Functions.v`, `Tabled.v`, `Hyperbola.v`, `Loglog.v`, `Power.v`, `Probfn.v` (in double precision), `Deriv.v`, `Graph.v`, `Shown.v` (output) | - |
| `relationships.cpp`, `.h` | `Group.v`, `Annual.v` (figures), `Damage.v` (fates), `Graph.v` (callbacks and caches), `Deriv.v` (slopes) | the numerical derivative is arbitrary except in C85 |
| `comp_group.cpp`, `.h`, `structure.cpp`, `.h` | `Group.v`, `Annual.v`, `Damage.v`, `Graph.v`, `Nested.v` (which caches ask which), `Totals.v`, `Spread.v`, `Discount.v` (in double precision) | as above |
| `pyslatcore.cpp` | `Functions.v`, `Lognormal.v`, `Make.v`, `Group.v`, `Log.v`, `Bulk.v`, as cited | most one-line wrappers |
| `pyslatcore.i` | consulted for which arguments the bindings take | the generated wrappers |
| `pyslat.py` | `Script.v`, `Paths.v`, `Ranges.v`, `Span.v`, `Recorder.v`, `Analyze.v`, `Target.v`, `Import.v`, `Bulk.v`, `Wrapper.v`, `Describe.v`, `Names.v`, `Methods.v` | debugging output; the classes' attributes that nothing reads |
| the classes of `pyslat.py` for fragility, loss, groups, structures; the exception boundary of `pyslatcore.i` | `Define.v` | arguments that are not numbers; conversion of `float` to `int`, which depends on the versions of Python and SWIG |
| `SlatInterpreter.py`, `slatParser.g4`, `slatLexer.g4` | `Lexer.v`, `Interp.v`, `Program.v`, `Literal.v`, `Ranges.v`, `Target.v`, `Analyze.v`, `Describe.v` | ANTLR's generated parser (its result is a tree the grammar derives from the words of the text; there is at most one, C81) |
| `compare-values.awk`, `check-c-results.sh` | `Regress.v` | what is printed, but for the number of errors |
| other tests, examples, build files, GUI | - | all |

Outside `/repo`, and modelled as documented: the GSL's linear interpolation, accelerator and
bisection search; its numerical derivatives; its normal distribution function (laws only); CPython's `posixpath`; Boost.Log's
core with its default sink; NumPy's `loadtxt`, `mean` and `std`; OpenMP locks and critical
sections; ANTLR's longest match.

The simplifications of each model are listed in its header, and those of a definition in its
comment. Those that bear on the meaning of theorems:

* threads interleave at the granularity of shared accesses with sequentially consistent memory
  (`Cache.v`, `CVal.v`, `Stats_conc.v`, `Functions.v` for C59, `Context.v`); a data race, undefined in C++,
  is given its benign reading, so the positive theorems hold under that reading and the witnesses
  of misbehaviour do not depend on it;
* the object graph has one thread, and its calculations are arbitrary functions of what they read;
* addresses are not reused;
* exact arithmetic wherever a theorem is stated over `ER`.

## Axioms of each theorem

What `Print Assumptions` lists, printed beneath each theorem when the development is built. No other axiom is used, and none is declared here.

**Closed under the global context (no axiom)** (262 theorems):
`C01_transparent`, `C01_value_transparent`, `C02_once`, `C03_answers`, `C03_locks`,
`C04_no_deadlock`, `C05_clear_partial`, `C05_clear_refuted`, `C05_one_thread_partial`,
`C05_value_one_thread_partial`, `C06_first_partial`, `C06_once_partial`, `C06_value_refuted`,
`C07_clear_caches`, `C07_first_refuted`, `C08_exception_partial`, `C08_exception_refuted`,
`C08_value_partial`, `C09_notify`, `C103_endless_fails`, `C103_logs`, `C103_nothing_fails`,
`C104_chance`, `C104_missing`, `C104_never_negative`, `C104_other_fails`, `C104_same_partial`,
`C104_same_refuted`, `C104_zero`, `C105_log_refused`, `C10_replace`, `C11_careful_partial`,
`C11_displaced_refuted`, `C11_dropped_refuted`, `C11_evicted_refuted`, `C11_self_refuted`,
`C12_displaced_refuted`, `C12_partial`, `C12_second_refuted`, `C13_partial`, `C13_refuted`,
`C14_demolition_refuted`, `C14_input_refuted`, `C14_partial`, `C14_rebuild_refuted`,
`C14_removal_refuted`, `C14_total_partial`, `C15_collapse_partial`, `C15_collapse_refuted`,
`C15_demolition_partial`, `C15_demolition_refuted`, `C16_first_partial`, `C16_second_refuted`,
`C17_settings`, `C18_terminates`, `C19_count_partial`, `C19_count_refuted`,
`C20_search_limit_partial`, `C20_search_limit_refuted`, `C21_range_refuted`, `C23_double_refuted`,
`C23_failure_partial`, `C23_failure_refuted`, `C24_tiling`, `C28_statistics_partial`,
`C28_statistics_refuted`, `C29_concurrent_partial`, `C29_concurrent_refuted`, `C44_addition`,
`C44_one_measure`, `C45_contents`, `C48_grouping`, `C50_chain`, `C50_rounding_refuted`,
`C51_nesting_refuted`, `C51_restored_partial`, `C51_safe_partial`, `C51_text_partial`,
`C52_annual_cols_refuted`, `C52_annual_fails`, `C52_annual_refuted`, `C52_dictionary_nameless`,
`C52_dictionary_refuted`, `C52_grammar`, `C52_integration_refuted`, `C52_integration_swaps`,
`C52_linear_refuted`, `C52_loglog_refuted`, `C52_piecewise_fails`, `C52_probfn_fails`,
`C52_probfn_refuted`, `C52_script_partial`, `C52_variables`, `C53_compound_partial`,
`C53_compound_refuted`, `C53_figures_partial`, `C53_partial`, `C53_refuted`, `C55_accepted_partial`,
`C55_extreme_limits_refuted`, `C55_unlimited_fails`, `C55_unsafe_fails`, `C56_partial`,
`C56_refuted`, `C57_partial`, `C57_refuted`, `C58_partial`, `C58_refuted`, `C63_again_partial`,
`C63_again_refuted`, `C63_file`, `C64_annual_fails`, `C64_annual_repeats`, `C64_cost_fails`,
`C64_deagg_fails`, `C64_edp_fails`, `C64_edp_quantiles`, `C64_fate_fails`, `C64_groups_fails`,
`C64_integers_demand`, `C64_integers_fails`, `C64_lossds_fails`, `C64_names_once`,
`C64_pdf_heading`, `C64_probfn_fails`, `C64_states_ignored`, `C64_tables_partial`,
`C64_tables_refuted`, `C64_unnamed_fails`, `C64_values_needed`, `C65_heading_partial`,
`C65_heading_refuted`, `C65_line`, `C65_rows`, `C66_again`, `C66_alone`, `C66_failure`,
`C66_files_partial`, `C66_in_force`, `C66_others`, `C66_shared_refuted`, `C66_terminal_fails`,
`C67_object`, `C67_recorder_partial`, `C67_recorder_refuted`, `C68_log_partial`, `C68_log_refuted`,
`C68_nowhere_fails`, `C68_off_partial`, `C70_end`, `C70_end_fails`, `C70_literal_partial`,
`C70_literal_refuted`, `C70_value`, `C71_bilevel`, `C71_group`, `C71_structure_partial`,
`C74_commands_partial`, `C74_delay_fails`, `C74_delay_refuted`, `C75_layout_partial`,
`C75_layout_refuted`, `C76_number_partial`, `C76_number_refuted`, `C76_point_fails`, `C76_value`,
`C77_expression_partial`, `C77_expression_refuted`, `C78_dropped_refuted`, `C78_lossless`,
`C78_meaningless_fails`, `C78_unclosed_fails`, `C81_layout`, `C81_one_outcome`,
`C81_program_partial`, `C81_program_refuted`, `C81_refused`, `C81_text`, `C81_unambiguous`,
`C81_unterminated`, `C82_answers`, `C82_meaning`, `C82_once`, `C83_bounded`, `C83_circles_refuted`,
`C83_deadlock`, `C83_ends`, `C83_slat`, `C84_lists_fails`, `C84_lists_partial`, `C84_lists_refuted`,
`C84_loop`, `C84_number`, `C84_tuples`, `C86_not_negative_refuted`, `C87_demand_partial`,
`C87_fragfn_refuted`, `C87_function_refuted`, `C87_getIM_refuted`, `C87_given`, `C87_group_partial`,
`C87_inputs_partial`, `C87_names_partial`, `C87_structure_partial`, `C88_add_partial`,
`C88_moved_refuted`, `C88_refill_refuted`, `C88_renewed_refuted`, `C88_unknown`,
`C89_collapse_fails`, `C89_compound_fails`, `C89_detfn_fails`, `C89_detfn_refuted`,
`C89_distinct_partial`, `C89_known`, `C89_measure_partial`, `C89_name_partial`, `C89_none_refuted`,
`C89_told_partial`, `C90_extension_fails`, `C90_files`, `C90_place_partial`, `C90_place_refuted`,
`C90_text`, `C90_title_fails`, `C91_answers_partial`, `C91_ends_refuted`, `C91_failed`,
`C91_latest`, `C91_nameless_partial`, `C91_nameless_refuted`, `C91_object_partial`,
`C91_object_refuted`, `C91_one_object`, `C91_stuck_fails`, `C91_succeeded`, `C92_attribute_fails`,
`C92_attribute_partial`, `C92_deaggregated_fails`, `C92_hint_partial`, `C92_hint_refuted`,
`C92_method_partial`, `C92_method_refuted`, `C92_no_other`, `C92_one_figure`, `C92_returned_fails`,
`C92_setters_partial`, `C92_years_partial`, `C92_years_refuted`, `C93_harmless`, `C93_same_refuted`,
`C95_check`, `C95_empty_refuted`, `C95_fields_refuted`, `C95_lines_refuted`, `C95_missing_partial`,
`C95_noticed_partial`, `C95_same_partial`, `C95_same_refuted`, `C95_word_refuted`,
`C97_written_partial`, `C97_written_refuted`

**`ClassicalDedekindReals.sig_forall_dec`, `FunctionalExtensionality.functional_extensionality_dep`** (39 theorems):
`C21_range_partial`, `C22_feature_partial`, `C22_feature_refuted`, `C23_success_finite_partial`,
`C23_success_number_partial`, `C24_tiling_proper`, `C25_cubic`, `C26_bounds`, `C26_sign`,
`C27_scale`, `C38_monotone_partial`, `C41_history`, `C41_linear`, `C41_meaning`, `C41_special`,
`C43_sampled_partial`, `C50_linear_partial`, `C50_stepped_partial`, `C59_alone_partial`,
`C59_refuted`, `C59_safe_partial`, `C93_report`, `C93_same_partial`, `C94_made_nothing`,
`C94_total_refuted`, `C96_intensity_nothing`, `C97_brackets_fails`, `C97_brackets_partial`,
`C97_curve`, `C97_demand`, `C97_group`, `C97_same_curve_partial`, `C97_same_group_partial`,
`C97_same_refuted`, `C97_states`, `C98_between_refuted`, `C98_falls_refuted`, `C98_points_refuted`,
`C98_rises_refuted`

**`ClassicalDedekindReals.sig_forall_dec`, `ClassicalDedekindReals.sig_not_dec`, `FunctionalExtensionality.functional_extensionality_dep`** (2 theorems):
`C47_several`, `C47_zero_rate_refuted`

**`ClassicalDedekindReals.sig_forall_dec`, `ClassicalDedekindReals.sig_not_dec`, `Classical_Prop.classic`, `FunctionalExtensionality.functional_extensionality_dep`** (207 theorems):
`C100_digits_partial`, `C100_digits_refuted`, `C100_lost_fails`, `C100_number`, `C100_right`,
`C100_rises`, `C100_undiscounted_fails`, `C101_accepted_partial`, `C101_accepted_refuted`,
`C101_between`, `C101_history`, `C101_number`, `C101_outside`, `C101_points_partial`,
`C101_points_refuted`, `C102_beyond_fails`, `C102_ends`, `C102_number_partial`,
`C102_number_refuted`, `C102_order`, `C102_right`, `C103_both_partial`, `C103_mean`,
`C103_median_partial`, `C103_median_refuted`, `C103_small_fails`, `C103_zero`, `C104_back`,
`C105_falling_fails`, `C105_linear`, `C105_log`, `C105_stepped`, `C21_range_double_partial`,
`C23_success_double_partial`, `C25_polynomial`, `C30_round_trip`, `C30_unsupported`,
`C31_certain_partial`, `C31_monotone_partial`, `C31_probabilities_partial`, `C31_quantiles_partial`,
`C31_refuted`, `C31_where_refuted`, `C32_adjust`, `C32_reported`, `C33_grouping`, `C33_order`,
`C33_single`, `C33_sum`, `C33_zero`, `C34_lengths`, `C34_mixture`, `C34_weights`, `C35_partial`,
`C35_refuted`, `C35_spread_partial`, `C35_states_partial`, `C35_sum_refuted`, `C36_partial`,
`C36_refuted`, `C37_demand`, `C37_levels`, `C37_linear`, `C37_loss`, `C37_monotone`, `C37_negative`,
`C38_defined_partial`, `C38_partial`, `C38_refuted`, `C38_threshold_refuted`, `C39_accepted`,
`C39_loss`, `C39_rejected`, `C40_curves_partial`, `C40_none_partial`, `C40_partial`, `C40_refuted`,
`C40_sum_partial`, `C40_vector_partial`, `C41_loglog_history_partial`, `C41_loglog_meaning_partial`,
`C41_loglog_partial`, `C41_loglog_refuted`, `C42_diverges_refuted`, `C42_partial`, `C42_refuted`,
`C43_none`, `C43_none_demand`, `C43_rate`, `C43_reported_partial`, `C43_zero_refuted`,
`C46_by_fate_partial`, `C46_collapse`, `C46_repair`, `C46_total_partial`, `C46_total_refuted`,
`C47_discounted_partial`, `C47_failure`, `C47_present_value`, `C49_compound`, `C49_undefined`,
`C50_log_partial`, `C50_log_refused`, `C50_range_refuted`, `C54_monotone_partial`,
`C54_power_partial`, `C54_range_partial`, `C54_refuted`, `C55_exactly_partial`, `C60_kind_partial`,
`C60_partial`, `C60_refuted`, `C61_delay_partial`, `C61_spread_refuted`, `C62_moments`,
`C62_no_spread`, `C69_between_partial`, `C69_collapse_fails`, `C69_curve`, `C69_gap_fails`,
`C69_import_refuted`, `C69_order_fails`, `C69_rows_partial`, `C69_single_fails`, `C71_edp_partial`,
`C71_fragility_options_partial`, `C71_fragility_partial`, `C71_im_cost_partial`,
`C71_im_delay_partial`, `C71_mistakes_refuted`, `C72_default_fails`, `C72_fragility_partial`,
`C72_losses_partial`, `C72_unsupported_fails`, `C72_zero_fails`, `C72_zero_refuted`,
`C73_cost_partial`, `C73_delay_fails`, `C73_without_fails`, `C73_zero_fails`, `C73_zero_refuted`,
`C79_collapse`, `C79_demand`, `C79_demolition`, `C79_exceedence`, `C79_given_cost`,
`C79_given_delay`, `C79_given_state`, `C79_group`, `C79_state`, `C79_structure`,
`C80_polynomial_partial`, `C80_smooth_partial`, `C80_substitution_partial`, `C80_tolerance_refuted`,
`C85_bounded_partial`, `C85_corner_partial`, `C85_demand_partial`, `C85_far_fails`, `C85_figures`,
`C85_left_end_partial`, `C85_polynomial_partial`, `C85_power_partial`, `C85_right_end_partial`,
`C85_slope_refuted`, `C85_smooth_partial`, `C85_table_partial`, `C86_not_negative_partial`,
`C86_weighted_partial`, `C94_added`, `C94_added_value`, `C94_annual`, `C94_fates`, `C94_made`,
`C94_made_partial`, `C94_total_partial`, `C94_weighted`, `C94_weighted_made`, `C94_with_collapse`,
`C96_back_partial`, `C96_back_refuted`, `C96_demand`, `C96_intensity_partial`,
`C96_intensity_refuted`, `C96_level`, `C96_mean`, `C96_scaled`, `C96_scaled_nothing`,
`C96_small_fails`, `C96_states`, `C96_states_sum`, `C96_tiny_fails`, `C98_between_partial`,
`C98_falls_partial`, `C98_history`, `C98_line`, `C98_number`, `C98_outside`, `C98_points_partial`,
`C98_rises_partial`, `C99_ends`, `C99_falls`, `C99_number`, `C99_right_partial`,
`C99_right_refuted`, `C99_tiny_fails`, `normal_laws_hold`


## Trusted base

* Coq's kernel, including `vm_compute`, which computes some witnesses.
* The axioms listed above: those of the standard library's real numbers
  (`sig_forall_dec`, `sig_not_dec`), `functional_extensionality_dep`, on which the reals
  depend, and `classic` (excluded middle), used by the library's and Coquelicot's analysis. Coquelicot (integrals, in
  `Lognormal`'s Gaussian instance and C25) adds no axiom.
* The reading of `/repo` embodied in the model files, with the simplifications stated there.
* The statements: `_spec` and `_props` files. The mutation log in `seeded/LOG.jsonl` records which wrong
  programs make which theorems fail.
