{
 "claims": [
  {
   "property": "C01",
   "status": "proved",
   "theorems": [
    "C01_transparent",
    "C01_value_transparent"
   ],
   "note": "Calculations that respect the equality of keys and do not throw."
  },
  {
   "property": "C02",
   "status": "proved",
   "theorems": [
    "C02_once"
   ],
   "note": "Holds with clears too: at most once per key since the last clear."
  },
  {
   "property": "C03",
   "status": "proved",
   "theorems": [
    "C03_answers",
    "C03_locks"
   ],
   "note": "Sequentially consistent memory; ClearCache is atomic."
  },
  {
   "property": "C04",
   "status": "proved",
   "theorems": [
    "C04_no_deadlock"
   ],
   "note": "Explicit bound: 18 steps per operation."
  },
  {
   "property": "C05",
   "status": "partial",
   "theorems": [
    "C05_clear_refuted",
    "C05_clear_partial",
    "C05_one_thread_partial",
    "C05_value_one_thread_partial"
   ],
   "note": "False: a clear during a call lets old or never-calculated values through. Proved when no clear meets a call in progress (always so with one thread)."
  },
  {
   "property": "C06",
   "status": "partial",
   "theorems": [
    "C06_value_refuted",
    "C06_once_partial",
    "C06_first_partial"
   ],
   "note": "False: waiting lock released by non-holders, callers after a clear do not wait. Proved: one calculation per clear and main-lock ownership always; right answers and progress before the first clear."
  },
  {
   "property": "C07",
   "status": "proved",
   "theorems": [
    "C07_clear_caches",
    "C07_first_refuted"
   ],
   "note": "Once a cache was constructed. C07_first_refuted: before that, Clear_Caches uses a lock nobody initialised."
  },
  {
   "property": "C08",
   "status": "partial",
   "theorems": [
    "C08_exception_refuted",
    "C08_exception_partial",
    "C08_value_partial"
   ],
   "note": "False: later calls for the same argument block for ever. Proved: only callers of an argument that threw can be left waiting."
  },
  {
   "property": "C09",
   "status": "proved",
   "theorems": [
    "C09_notify"
   ],
   "note": "All registration/removal/notification histories of one object; clients register when unregistered and leave when registered, as constructors and destructors do. One thread; the id counter is unbounded."
  },
  {
   "property": "C10",
   "status": "proved",
   "theorems": [
    "C10_replace"
   ],
   "note": "Any chain of distinct objects not mentioned before; the clients are those the history says use the object. The history before the chain is careful (no registration with an object that already replaced another): see C11."
  },
  {
   "property": "C11",
   "status": "partial",
   "theorems": [
    "C11_displaced_refuted",
    "C11_evicted_refuted",
    "C11_dropped_refuted",
    "C11_self_refuted",
    "C11_careful_partial"
   ],
   "note": "False of the code: the id counter is not carried over, so newcomers can displace carried-over clients and leaving clients can unregister newcomers; clients the replacement already had are overwritten; self-replacement loses all. Holds for careful histories."
  },
  {
   "property": "C12",
   "status": "partial",
   "theorems": [
    "C12_displaced_refuted",
    "C12_second_refuted",
    "C12_partial"
   ],
   "note": "False: callbacks lost on replacement (C11, C16) leave remembered rates in place. Proved for all careful histories: no registration with an object that itself replaced another, no replacement by an object in use, no replacement of a compound second function, settings unchanged after the first query."
  },
  {
   "property": "C13",
   "status": "partial",
   "theorems": [
    "C13_refuted",
    "C13_partial"
   ],
   "note": "As C12, for all remembered figures of a group."
  },
  {
   "property": "C14",
   "status": "partial",
   "theorems": [
    "C14_input_refuted",
    "C14_removal_refuted",
    "C14_rebuild_refuted",
    "C14_demolition_refuted",
    "C14_partial",
    "C14_total_partial"
   ],
   "note": "False for the annual cost after replacing an input of a group, removing a group, or changing rebuild or demolition cost. Proved: it follows additions, replaced groups, and everything about the measure; the total cost given an intensity follows everything (careful histories)."
  },
  {
   "property": "C15",
   "status": "partial",
   "theorems": [
    "C15_collapse_refuted",
    "C15_demolition_refuted",
    "C15_collapse_partial",
    "C15_demolition_partial"
   ],
   "note": "False after replacing the hazard function (both rates) and, for the demolition rate, after changing the collapse distribution. Proved when none of that happened since the rate was last cleared."
  },
  {
   "property": "C16",
   "status": "partial",
   "theorems": [
    "C16_second_refuted",
    "C16_first_partial"
   ],
   "note": "False for the second function: its replacement overwrites the first. Proved for the first, repeatedly."
  },
  {
   "property": "C17",
   "status": "proved",
   "theorems": [
    "C17_settings"
   ],
   "note": "All histories of settings calls, in binary64."
  },
  {
   "property": "C18",
   "status": "proved",
   "theorems": [
    "C18_terminates"
   ],
   "note": "Any arithmetic with x < y excluding y <= x (binary64 and the extended reals both qualify)."
  },
  {
   "property": "C19",
   "status": "partial",
   "theorems": [
    "C19_count_refuted",
    "C19_count_partial"
   ],
   "note": "The statement is false: each bisection calls the integrand twice but is counted once, and the limit is tested only after the fact. The exact relation between calls made, evaluations reported and limits is proved instead."
  },
  {
   "property": "C20",
   "status": "partial",
   "theorems": [
    "C20_search_limit_refuted",
    "C20_search_limit_partial"
   ],
   "note": "False for four methods (the inner loops do not test the limit); the reported count is proved exact and the true bound of each method is proved. The scattered search does satisfy the statement."
  },
  {
   "property": "C21",
   "status": "partial",
   "theorems": [
    "C21_range_refuted",
    "C21_range_partial",
    "C21_range_double_partial"
   ],
   "note": "False of the directed search, which settles for any positive value. Proved in exact arithmetic for all methods with what each one promises, and in double precision with every rounding."
  },
  {
   "property": "C22",
   "status": "partial",
   "theorems": [
    "C22_feature_refuted",
    "C22_feature_partial"
   ],
   "note": "False of the directed (default), scattered and low-first searches, with witnesses. Proved for the binary and reverse binary searches, and for low-first in the upper half, in exact arithmetic."
  },
  {
   "property": "C23",
   "status": "partial",
   "theorems": [
    "C23_failure_refuted",
    "C23_failure_partial",
    "C23_success_finite_partial",
    "C23_success_number_partial",
    "C23_double_refuted",
    "C23_success_double_partial"
   ],
   "note": "False: opposite infinities give a successful NaN. Failure implies NaN and flag for every arithmetic; success is finite for finite integrands and a number for non-negative ones in exact arithmetic. In double precision finite non-negative integrands can still give a successful NaN (witness under the default settings); integrands below 2^1000 cannot."
  },
  {
   "property": "C24",
   "status": "proved",
   "theorems": [
    "C24_tiling",
    "C24_tiling_proper"
   ],
   "note": "Every arithmetic; properness of the tiles (hence no overlap) in exact arithmetic."
  },
  {
   "property": "C25",
   "status": "proved",
   "theorems": [
    "C25_polynomial",
    "C25_cubic"
   ],
   "note": "Exact arithmetic. The degree-three part needs room for four evaluations after the search."
  },
  {
   "property": "C26",
   "status": "proved",
   "theorems": [
    "C26_bounds",
    "C26_sign"
   ],
   "note": "Exact arithmetic."
  },
  {
   "property": "C27",
   "status": "proved",
   "theorems": [
    "C27_scale"
   ],
   "note": "Exact arithmetic; same range found for both integrands."
  },
  {
   "property": "C28",
   "status": "partial",
   "theorems": [
    "C28_statistics_refuted",
    "C28_statistics_partial"
   ],
   "note": "False as regards the maxima, which failing calls also raise. All counters, totals and maxima are proved to be the stated function of the results since the last reset."
  },
  {
   "property": "C29",
   "status": "partial",
   "theorems": [
    "C29_concurrent_refuted",
    "C29_concurrent_partial"
   ],
   "note": "False as regards the maxima (lost update). Counters and totals proved equal to the sequential ones in every interleaving; maxima never too large."
  },
  {
   "property": "C30",
   "status": "proved",
   "theorems": [
    "C30_round_trip",
    "C30_unsupported"
   ],
   "note": "Exact arithmetic: rounding, overflow and underflow are not modelled."
  },
  {
   "property": "C31",
   "status": "partial",
   "theorems": [
    "C31_refuted",
    "C31_where_refuted",
    "C31_probabilities_partial",
    "C31_monotone_partial",
    "C31_quantiles_partial",
    "C31_certain_partial"
   ],
   "note": "False without spread at the value itself, at negative values and for a certain zero at zero (NaN). Proved everywhere else, over any normal distribution function; normal_laws_hold shows that the Gaussian one qualifies."
  },
  {
   "property": "C32",
   "status": "proved",
   "theorems": [
    "C32_adjust",
    "C32_reported"
   ],
   "note": "Exact arithmetic."
  },
  {
   "property": "C33",
   "status": "proved",
   "theorems": [
    "C33_sum",
    "C33_order",
    "C33_grouping",
    "C33_zero",
    "C33_single"
   ],
   "note": "Exact arithmetic; the result is the same distribution, not only the same moments."
  },
  {
   "property": "C34",
   "status": "proved",
   "theorems": [
    "C34_mixture",
    "C34_weights",
    "C34_lengths"
   ],
   "note": "Exact arithmetic."
  },
  {
   "property": "C35",
   "status": "partial",
   "theorems": [
    "C35_refuted",
    "C35_sum_refuted",
    "C35_states_partial",
    "C35_spread_partial",
    "C35_partial"
   ],
   "note": "False: curves of different spread cross. Proved exactly when it holds; in full for states of one spread."
  },
  {
   "property": "C36",
   "status": "partial",
   "theorems": [
    "C36_refuted",
    "C36_partial"
   ],
   "note": "False if a state has no median (NaN). Proved otherwise."
  },
  {
   "property": "C37",
   "status": "proved",
   "theorems": [
    "C37_loss",
    "C37_levels",
    "C37_demand",
    "C37_linear",
    "C37_monotone",
    "C37_negative"
   ],
   "note": "Exact arithmetic. Counts that are not negative; for a negative count the mean is NaN."
  },
  {
   "property": "C38",
   "status": "partial",
   "theorems": [
    "C38_refuted",
    "C38_threshold_refuted",
    "C38_defined_partial",
    "C38_partial",
    "C38_monotone_partial"
   ],
   "note": "False: int overflow, and thresholds not in order. Proved otherwise; undefined exactly if the thresholds are further apart than int allows and the count is between them."
  },
  {
   "property": "C39",
   "status": "proved",
   "theorems": [
    "C39_loss",
    "C39_rejected",
    "C39_accepted"
   ],
   "note": ""
  },
  {
   "property": "C40",
   "status": "partial",
   "theorems": [
    "C40_refuted",
    "C40_sum_partial",
    "C40_partial",
    "C40_curves_partial",
    "C40_none_partial",
    "C40_vector_partial"
   ],
   "note": "False: demolition gets a negative probability where the collapse curve is above the demolition curve. Proved exactly when it holds."
  },
  {
   "property": "C41",
   "status": "partial",
   "theorems": [
    "C41_linear",
    "C41_meaning",
    "C41_history",
    "C41_special",
    "C41_loglog_refuted",
    "C41_loglog_partial",
    "C41_loglog_meaning_partial",
    "C41_loglog_history_partial"
   ],
   "note": "Linear: proved. Log-log: false for tables with a zero value (not a number even at a given point), proved for positive tables."
  },
  {
   "property": "C42",
   "status": "partial",
   "theorems": [
    "C42_refuted",
    "C42_diverges_refuted",
    "C42_partial"
   ],
   "note": "False: a median or mean logarithm with the standard deviation of X recurses for ever. Proved for the other four combinations."
  },
  {
   "property": "C43",
   "status": "partial",
   "theorems": [
    "C43_none",
    "C43_none_demand",
    "C43_zero_refuted",
    "C43_reported_partial",
    "C43_sampled_partial",
    "C43_rate"
   ],
   "note": "No components: proved. That a reported zero is the mean cost is false: a failed integration is reported as zero. Proved: other values come from a successful integration; a successful zero means the integrand is zero at every sampled point; rates are NaN on failure."
  },
  {
   "property": "C44",
   "status": "proved",
   "theorems": [
    "C44_one_measure",
    "C44_addition"
   ],
   "note": "All histories without replacements (with them: C58)."
  },
  {
   "property": "C45",
   "status": "proved",
   "theorems": [
    "C45_contents"
   ],
   "note": "All histories without replacements."
  },
  {
   "property": "C46",
   "status": "partial",
   "theorems": [
    "C46_total_refuted",
    "C46_total_partial",
    "C46_by_fate_partial",
    "C46_collapse",
    "C46_repair"
   ],
   "note": "False for structures without groups, unset demolition cost, crossing fate curves, and by rounding. Proved with exact arithmetic wherever the fate probabilities are probabilities."
  },
  {
   "property": "C47",
   "status": "partial",
   "theorems": [
    "C47_zero_rate_refuted",
    "C47_present_value",
    "C47_discounted_partial",
    "C47_failure",
    "C47_several"
   ],
   "note": "At rate zero the value is NaN, for every structure. Everything else proved for rates other than zero."
  },
  {
   "property": "C48",
   "status": "proved",
   "theorems": [
    "C48_grouping"
   ],
   "note": ""
  },
  {
   "property": "C49",
   "status": "proved",
   "theorems": [
    "C49_compound",
    "C49_undefined"
   ],
   "note": "The second theorem says what happens where a mean is not a number."
  },
  {
   "property": "C50",
   "status": "partial",
   "theorems": [
    "C50_range_refuted",
    "C50_rounding_refuted",
    "C50_linear_partial",
    "C50_log_partial",
    "C50_log_refused",
    "C50_stepped_partial",
    "C50_chain"
   ],
   "note": "False for falling and constant linear ranges, single logarithmic values, ends not hit by the steps, and by rounding. Proved in exact arithmetic for rising linear ranges, logarithmic ranges of two or more values, and stepped ranges."
  },
  {
   "property": "C51",
   "status": "partial",
   "theorems": [
    "C51_nesting_refuted",
    "C51_text_partial",
    "C51_safe_partial",
    "C51_restored_partial"
   ],
   "note": "False when team sizes grow between regions (vector accessed beyond its end) and when a serialised region contains a parallel one (contexts shared). Proved for every interleaving when team sizes depend on the depth only."
  },
  {
   "property": "C52",
   "status": "partial",
   "theorems": [
    "C52_grammar",
    "C52_script_partial",
    "C52_variables",
    "C52_loglog_refuted",
    "C52_linear_refuted",
    "C52_piecewise_fails",
    "C52_probfn_refuted",
    "C52_probfn_fails",
    "C52_integration_refuted",
    "C52_integration_swaps",
    "C52_dictionary_refuted",
    "C52_dictionary_nameless",
    "C52_annual_refuted",
    "C52_annual_cols_refuted",
    "C52_annual_fails"
   ],
   "note": "False for piecewise functions, functions named by variables, iterations not given as a literal, dictionaries, and annual costs. Proved for every script without these, whatever the calls return or raise, and that every derivable tree is one of the abstract syntax."
  },
  {
   "property": "C53",
   "status": "partial",
   "theorems": [
    "C53_refuted",
    "C53_partial",
    "C53_figures_partial",
    "C53_compound_refuted",
    "C53_compound_partial"
   ],
   "note": "False after a further object was defined on a redefined one, and for compound demand parameters, which keep the functions they were made with. Proved for scripts that do neither, with the resulting figures."
  },
  {
   "property": "C54",
   "status": "partial",
   "theorems": [
    "C54_refuted",
    "C54_range_partial",
    "C54_monotone_partial",
    "C54_power_partial"
   ],
   "note": "False: the announced clipping to one is missing. Non-negative, non-increasing, at most the asymptotic rate, zero from the asymptote on: proved."
  },
  {
   "property": "C55",
   "status": "partial",
   "theorems": [
    "C55_extreme_limits_refuted",
    "C55_accepted_partial",
    "C55_exactly_partial",
    "C55_unsafe_fails",
    "C55_unlimited_fails"
   ],
   "note": "The full statement is false: int overflow for large search limits, and an endless loop for an evaluation limit of 2^32-1. Proved: exactly which accepted limits make every integration return, for each search method (all search limits for the scattered and directed searches, up to 2^30 for the binary ones, two ranges for the low-first one; evaluation limits below 2^32-1), and what happens with every other limit."
  },
  {
   "property": "C56",
   "status": "partial",
   "theorems": [
    "C56_refuted",
    "C56_partial"
   ],
   "note": "False: remembered figures survive a change of the settings. Proved for demand rates and group figures if all caches are cleared after the change."
  },
  {
   "property": "C57",
   "status": "partial",
   "theorems": [
    "C57_refuted",
    "C57_partial"
   ],
   "note": "False for structures, whose destructor is empty. Proved for careful histories that keep structures."
  },
  {
   "property": "C58",
   "status": "partial",
   "theorems": [
    "C58_refuted",
    "C58_partial"
   ],
   "note": "False: the check is made on addition only. Proved for replacements that keep each demand parameter and group on its measure."
  },
  {
   "property": "C59",
   "status": "partial",
   "theorems": [
    "C59_refuted",
    "C59_safe_partial",
    "C59_alone_partial"
   ],
   "note": "False: the shared accelerator index is read again after the search. Proved: the index is always within the table; a thread alone gets the right value."
  },
  {
   "property": "C60",
   "status": "partial",
   "theorems": [
    "C60_refuted",
    "C60_partial",
    "C60_kind_partial"
   ],
   "note": "False: short parameter lists are read past their end, bad tables give null functions or end the program. Proved: suitable parameters give the right function, wrong kinds are refused."
  },
  {
   "property": "C61",
   "status": "partial",
   "theorems": [
    "C61_spread_refuted",
    "C61_delay_partial"
   ],
   "note": "False for two components: the spread of the delay uses the mean per component but the standard deviation of all. Proved: equal means for every count, equal spreads for one component."
  },
  {
   "property": "C62",
   "status": "proved",
   "theorems": [
    "C62_moments",
    "C62_no_spread"
   ],
   "note": ""
  },
  {
   "property": "C63",
   "status": "partial",
   "theorems": [
    "C63_file",
    "C63_again_refuted",
    "C63_again_partial"
   ],
   "note": "The file used is the one meant for every name. Completing twice is false of last components made of dots only; proved for all others."
  },
  {
   "property": "C64",
   "status": "partial",
   "theorems": [
    "C64_tables_refuted",
    "C64_tables_partial",
    "C64_edp_fails",
    "C64_edp_quantiles",
    "C64_probfn_fails",
    "C64_deagg_fails",
    "C64_lossds_fails",
    "C64_cost_fails",
    "C64_fate_fails",
    "C64_groups_fails",
    "C64_states_ignored",
    "C64_pdf_heading",
    "C64_integers_fails",
    "C64_integers_demand",
    "C64_values_needed",
    "C64_annual_repeats",
    "C64_annual_fails",
    "C64_names_once",
    "C64_unnamed_fails"
   ],
   "note": "False for probabilistic functions, deaggregated costs, losses by state, most columns of demand parameters, medians and means of logarithms of costs by part, chosen damage states, long names in pdf tables. Proved for all tables otherwise."
  },
  {
   "property": "C65",
   "status": "partial",
   "theorems": [
    "C65_line",
    "C65_rows",
    "C65_heading_refuted",
    "C65_heading_partial"
   ],
   "note": "False for headings with long names; proved for every row, and for headings exactly when names are short."
  },
  {
   "property": "C66",
   "status": "partial",
   "theorems": [
    "C66_terminal_fails",
    "C66_shared_refuted",
    "C66_files_partial",
    "C66_others",
    "C66_alone",
    "C66_failure",
    "C66_again",
    "C66_in_force"
   ],
   "note": "False for recorders without a file name (exception) and for two naming the same file. Proved for all others, with failures and repetition."
  },
  {
   "property": "C67",
   "status": "partial",
   "theorems": [
    "C67_recorder_refuted",
    "C67_recorder_partial",
    "C67_object"
   ],
   "note": "False if the name is defined again after the recorder was: it keeps the old object. Proved for all careful scripts otherwise, and that this is the only case."
  },
  {
   "property": "C68",
   "status": "partial",
   "theorems": [
    "C68_log_refuted",
    "C68_log_partial",
    "C68_off_partial",
    "C68_nowhere_fails"
   ],
   "note": "False once switched off: later switching on adds a copy each time and cannot be undone; without any sink messages go to standard output. Proved exactly how many copies go where for every history."
  },
  {
   "property": "C69",
   "status": "partial",
   "theorems": [
    "C69_import_refuted",
    "C69_rows_partial",
    "C69_between_partial",
    "C69_gap_fails",
    "C69_order_fails",
    "C69_single_fails",
    "C69_collapse_fails",
    "C69_curve"
   ],
   "note": "Proved for files of two or more rows with two or more responses without collapse in each, in increasing order, without rounding. False otherwise: a single row raises, one surviving response gives NaN in the whole interval around it, disorder ends the program. The share of collapses is computed and dropped."
  },
  {
   "property": "C70",
   "status": "partial",
   "theorems": [
    "C70_literal_refuted",
    "C70_literal_partial",
    "C70_value",
    "C70_end",
    "C70_end_fails"
   ],
   "note": "Proved exactly for which strings it holds: those that neither begin nor end with a quote character, and, if single-quoted and ending in a backslash, have no single quote after them. False of the others, among them an example in the manual."
  },
  {
   "property": "C71",
   "status": "partial",
   "theorems": [
    "C71_mistakes_refuted",
    "C71_fragility_partial",
    "C71_fragility_options_partial",
    "C71_bilevel",
    "C71_group",
    "C71_structure_partial",
    "C71_edp_partial",
    "C71_im_cost_partial",
    "C71_im_delay_partial"
   ],
   "note": "False: the bindings catch no C++ exception, so that empty or ill-ordered fragility functions, empty loss functions, requests to groups whose loss function has another number of states, and groups of another intensity measure end the process. Proved for every definition and request which of returning, raising, ending the process and overflowing happens."
  },
  {
   "property": "C72",
   "status": "partial",
   "theorems": [
    "C72_default_fails",
    "C72_unsupported_fails",
    "C72_zero_refuted",
    "C72_zero_fails",
    "C72_fragility_partial",
    "C72_losses_partial"
   ],
   "note": "Proved with both options given and supported and, for losses, no location zero. False otherwise: omitted options always raise an exception, unsupported combinations are accepted and make every mean cost given an intensity zero, and a loss of location zero is not a distribution."
  },
  {
   "property": "C73",
   "status": "partial",
   "theorems": [
    "C73_zero_refuted",
    "C73_zero_fails",
    "C73_cost_partial",
    "C73_delay_fails",
    "C73_without_fails"
   ],
   "note": "Proved for groups without a zero among their unit costs. With one, the mean cost given every demand is not a number and that given every intensity is reported as zero; without a delay function delays are not numbers, or the request ends the process."
  },
  {
   "property": "C74",
   "status": "partial",
   "theorems": [
    "C74_delay_refuted",
    "C74_delay_fails",
    "C74_commands_partial"
   ],
   "note": "False of a component group whose delay function is unknown: the interpreter looks the name up, finds nothing, and the group is made without delays. Proved: what such a definition makes, and that every other command of every script (objects being freed only once no name leads to them, as in Python) does what the relation says."
  },
  {
   "property": "C75",
   "status": "partial",
   "theorems": [
    "C75_layout_refuted",
    "C75_layout_partial"
   ],
   "note": "Proved for all texts in which the keyword loglog has a blank before it and no other word beginning with those letters has. The blank belongs to the keyword: after a tab or a line end loglog is a name."
  },
  {
   "property": "C76",
   "status": "partial",
   "theorems": [
    "C76_number_refuted",
    "C76_number_partial",
    "C76_point_fails",
    "C76_value"
   ],
   "note": "Proved for numbers that do not begin with their point or have a sign. The others, such as .5, are read as names."
  },
  {
   "property": "C77",
   "status": "partial",
   "theorems": [
    "C77_expression_refuted",
    "C77_expression_partial"
   ],
   "note": "Proved for expressions without parentheses inside quotes, which are counted although Python does not."
  },
  {
   "property": "C78",
   "status": "partial",
   "theorems": [
    "C78_lossless",
    "C78_dropped_refuted",
    "C78_meaningless_fails",
    "C78_unclosed_fails"
   ],
   "note": "Reading accounts for every character, but what is reported as no word is left out and the rest is executed."
  },
  {
   "property": "C79",
   "status": "proved",
   "theorems": [
    "C79_given_cost",
    "C79_given_delay",
    "C79_given_state",
    "C79_group",
    "C79_exceedence",
    "C79_state",
    "C79_collapse",
    "C79_demolition",
    "C79_demand",
    "C79_structure"
   ],
   "note": "Exact arithmetic; numerical derivatives are arbitrary functions."
  },
  {
   "property": "C80",
   "status": "partial",
   "theorems": [
    "C80_tolerance_refuted",
    "C80_polynomial_partial",
    "C80_smooth_partial",
    "C80_substitution_partial"
   ],
   "note": "The error can exceed any bound; proved instead: bounds on it from how far the integrand is from a polynomial of degree five, or from its sixth derivative."
  },
  {
   "property": "C81",
   "status": "partial",
   "theorems": [
    "C81_unambiguous",
    "C81_text",
    "C81_layout",
    "C81_one_outcome",
    "C81_program_refuted",
    "C81_program_partial",
    "C81_refused",
    "C81_unterminated"
   ],
   "note": "Parsing and layout are proved for all scripts; what the run does is proved for sound commands (as C52) and refuted for others."
  },
  {
   "property": "C82",
   "status": "proved",
   "theorems": [
    "C82_answers",
    "C82_meaning",
    "C82_once"
   ],
   "note": "Calculations are arbitrary programs of questions and parallel regions; clearing and exceptions are treated for a single cache (C05, C06, C08)."
  },
  {
   "property": "C83",
   "status": "partial",
   "theorems": [
    "C83_deadlock",
    "C83_bounded",
    "C83_ends",
    "C83_slat",
    "C83_circles_refuted"
   ],
   "note": "Proved for calculations that do not ask in circles, as is proved of those of SLAT; refuted in general."
  },
  {
   "property": "C84",
   "status": "partial",
   "theorems": [
    "C84_loop",
    "C84_number",
    "C84_lists_refuted",
    "C84_lists_partial",
    "C84_lists_fails",
    "C84_tuples"
   ],
   "note": "Proved for all methods but MeanLn, Median and SD of edp, which raise an exception for every list."
  },
  {
   "property": "C85",
   "status": "partial",
   "theorems": [
    "C85_slope_refuted",
    "C85_far_fails",
    "C85_figures",
    "C85_polynomial_partial",
    "C85_smooth_partial",
    "C85_power_partial",
    "C85_table_partial",
    "C85_corner_partial",
    "C85_left_end_partial",
    "C85_right_end_partial",
    "C85_demand_partial",
    "C85_bounded_partial"
   ],
   "note": "In double precision the slope is zero at every argument of 2^28 or more. Proved without rounding: exact for polynomials of degree four and tables, with an error bound for smooth curves, and what it is at corners and ends."
  },
  {
   "property": "C86",
   "status": "partial",
   "theorems": [
    "C86_not_negative_refuted",
    "C86_not_negative_partial",
    "C86_weighted_partial"
   ],
   "note": "False for tolerances above 1, which are accepted (witness: minus infinity with tolerance 100). Proved in double precision for all integrands, methods, limits and tolerances up to 1."
  },
  {
   "property": "C87",
   "status": "partial",
   "theorems": [
    "C87_fragfn_refuted",
    "C87_getIM_refuted",
    "C87_function_refuted",
    "C87_names_partial",
    "C87_inputs_partial",
    "C87_given",
    "C87_demand_partial",
    "C87_group_partial",
    "C87_structure_partial"
   ],
   "note": "False after redefinitions, even in careful scripts: the recorder of damage states by demand asks the old fragility function; the measure named at the head of a group is the old one if its demand parameter was moved to another measure; a function named may since mean another. Proved for all careful scripts: the inputs used are the current meanings of the names of the inputs recorded (for functions, the recorded objects themselves); an object remembers, part by part, exactly what it was given; the recorded input is the one used exactly until its name is defined again; measures named by groups and structures are right if no demand parameter is moved."
  },
  {
   "property": "C88",
   "status": "partial",
   "theorems": [
    "C88_moved_refuted",
    "C88_refill_refuted",
    "C88_renewed_refuted",
    "C88_add_partial",
    "C88_unknown"
   ],
   "note": "False: Python compares its own objects after the library has added the group, and raises although the measures agree when a demand parameter was moved to another measure or an emptied structure is filled again, or the measure was defined again and a demand parameter defined on the new one; the group stays added. Proved for careful scripts in which no demand parameter is moved: success exactly if the structure is empty or has the measure of the group, otherwise the process ends with nothing changed."
  },
  {
   "property": "C89",
   "status": "partial",
   "theorems": [
    "C89_detfn_refuted",
    "C89_detfn_fails",
    "C89_collapse_fails",
    "C89_compound_fails",
    "C89_none_refuted",
    "C89_told_partial",
    "C89_distinct_partial",
    "C89_name_partial",
    "C89_known",
    "C89_measure_partial"
   ],
   "note": "False of deterministic functions (the format applies to the second half of the text only: type and parameters are never shown), of collapse distributions (only an address is shown), of compound demand parameters (the second is not shown) and of loss functions named None. Proved for everything else: the exact text, and that it determines the object; kind and name are always shown; printing never fails."
  },
  {
   "property": "C90",
   "status": "partial",
   "theorems": [
    "C90_text",
    "C90_files",
    "C90_title_fails",
    "C90_place_refuted",
    "C90_place_partial",
    "C90_extension_fails"
   ],
   "note": "False of titles (an empty line comes first) and of file names: print opens the name as it is, recorders add the output directory and an extension. Proved: terminal and files hold exactly what was printed to them, for every sequence of commands; the same file is meant exactly as far as the name has an extension, and a directory if an output directory is set."
  },
  {
   "property": "C91",
   "status": "partial",
   "theorems": [
    "C91_latest",
    "C91_failed",
    "C91_succeeded",
    "C91_nameless_refuted",
    "C91_nameless_partial",
    "C91_ends_refuted",
    "C91_answers_partial",
    "C91_stuck_fails",
    "C91_object_refuted",
    "C91_object_partial",
    "C91_one_object",
    "C91_structure_refuted",
    "C91_structure_partial"
   ],
   "note": "Proved for every history: a name gives the latest accepted definition since the last ClearCaches; a failed definition changes no lookup and hands nothing over; a successful one hands the users of the previous definition over once. False with placeholders (fragility functions from a database, bare fragility and loss functions): defining one over another definition ends the process, nothing can be defined over one, and looking up library objects fails past one; false of nameless demand parameters, which are found under None; and a structure can keep a group no name stands for, if something defined twice is used again. Proved without placeholders, of the other classes, and of careful scripts."
  },
  {
   "property": "C92",
   "status": "partial",
   "theorems": [
    "C92_method_refuted",
    "C92_method_partial",
    "C92_no_other",
    "C92_one_figure",
    "C92_attribute_fails",
    "C92_attribute_partial",
    "C92_years_refuted",
    "C92_years_partial",
    "C92_returned_fails",
    "C92_setters_partial",
    "C92_deaggregated_fails",
    "C92_hint_refuted",
    "C92_hint_partial"
   ],
   "note": "Proved that no method ever returns another figure than the one documented. False that all return it: probabilistic functions have no figures, as their class is not declared in the bindings, and groups no cost over years; years must be integers of Python; distributions that structures return are not accepted back; deaggregated costs come unwrapped; probabilities of collapse are documented as functions and must be distributions; a simple demand parameter has no hint for plotting until one is set. Proved exactly when these happen."
  },
  {
   "property": "C93",
   "status": "partial",
   "theorems": [
    "C93_report",
    "C93_harmless",
    "C93_same_refuted",
    "C93_same_partial"
   ],
   "note": "Proved for all programs whose tolerances are doubles: counters, limits and method exactly, tolerance to six digits, and that asking changes nothing. False that settings can be told from the report: tolerances differing in the seventh digit look the same; proved that nothing else can be mistaken."
  },
  {
   "property": "C94",
   "status": "partial",
   "theorems": [
    "C94_fates",
    "C94_total_refuted",
    "C94_total_partial",
    "C94_made_partial",
    "C94_with_collapse",
    "C94_weighted",
    "C94_weighted_made",
    "C94_made",
    "C94_made_nothing",
    "C94_added",
    "C94_added_value",
    "C94_annual"
   ],
   "note": "False of the total cost: with collapse nearly certain rounding makes the variance negative, and neither deviation nor mean of the distribution is a number. Proved: probabilities of the fates, mean of the total cost, cost with collapse, weighted and plain sums and the annual deviation are numbers and right to stated errors; the deviation of the total cost is unless the variance is below 2^-47 of the expected square."
  },
  {
   "property": "C95",
   "status": "partial",
   "theorems": [
    "C95_noticed_partial",
    "C95_missing_partial",
    "C95_lines_refuted",
    "C95_fields_refuted",
    "C95_empty_refuted",
    "C95_word_refuted",
    "C95_same_refuted",
    "C95_same_partial",
    "C95_check"
   ],
   "note": "False: lines and fields beyond those expected, an empty file of results, and a zero in place of a word are let through, and a file with a field such as a lone dash fails against itself. Proved: wherever both files have a field numbers are close and words equal; what is expected and missing is noticed unless it is zero; files of numbers and words that agree compare without error; the script succeeds exactly if names agree and all comparisons succeed."
  },
  {
   "property": "C96",
   "status": "partial",
   "theorems": [
    "C96_states",
    "C96_states_sum",
    "C96_level",
    "C96_mean",
    "C96_back_partial",
    "C96_small_fails",
    "C96_back_refuted",
    "C96_scaled",
    "C96_scaled_nothing",
    "C96_demand",
    "C96_intensity_refuted",
    "C96_tiny_fails",
    "C96_intensity_partial",
    "C96_intensity_nothing"
   ],
   "note": "Proved: chances of damage states, losses with two levels, means given back, scaling, and the loss of a group at a demand, mean and dispersion, to stated errors. False of two parts: a deviation below 2^-27 of its mean is lost altogether, and at an intensity a mean below 2^-538 has no finite dispersion, as its square is zero; proved that the deviation is given back to 2^-34 of the expected square, and the dispersion at an intensity to 2^-37 for means from 2^-60 on."
  },
  {
   "property": "C97",
   "status": "partial",
   "theorems": [
    "C97_curve",
    "C97_demand",
    "C97_states",
    "C97_group",
    "C97_written_refuted",
    "C97_written_partial",
    "C97_same_refuted",
    "C97_same_curve_partial",
    "C97_same_group_partial",
    "C97_brackets_fails",
    "C97_brackets_partial"
   ],
   "note": "Proved: kinds, names, counts and numbers stand where they should, numbers to five digits; texts of groups determine name and count exactly and all numbers shown to five digits, whatever the names. False: a group without a loss function for costs or delays cannot be written (an empty pointer is followed); tables, what the curves of a response stand for, second responses, collapse, demolition and losses with two levels are not shown; the text of every demand parameter leaves a bracket open."
  },
  {
   "property": "C98",
   "status": "partial",
   "theorems": [
    "C98_number",
    "C98_history",
    "C98_outside",
    "C98_line",
    "C98_points_refuted",
    "C98_points_partial",
    "C98_between_refuted",
    "C98_between_partial",
    "C98_falls_refuted",
    "C98_rises_refuted",
    "C98_falls_partial",
    "C98_rises_partial"
   ],
   "note": "Proved: a number for every argument and history, end values outside, the line between points to 2^-49. False at the last point, by rounding: its ordinate is not given back, the value may be below both ordinates, and a falling table may rise after it, a rising one fall. Proved: exact at all other points; between the ordinates, and falling or rising with the table, from any argument before the last 2^-50 of its interval, and within an interval."
  },
  {
   "property": "C99",
   "status": "partial",
   "theorems": [
    "C99_number",
    "C99_ends",
    "C99_falls",
    "C99_tiny_fails",
    "C99_right_refuted",
    "C99_right_partial"
   ],
   "note": "Proved: rates are numbers from 0 to the asymptotic rate, exact at both ends, and never rise. That they are the rates of the formula is false for intensities below 2^-1080 of the asymptotic one, which count as none; proved, to 2^-48 of the asymptotic rate, from 2^-1000 of it on and at zero, for exponents alpha from one on and asymptotic rates from 2^-1000 on, and to 1/alpha times that for alpha from 2^-20 to one. Not covered: the error for alpha below 2^-20."
  },
  {
   "property": "C100",
   "status": "partial",
   "theorems": [
    "C100_number",
    "C100_rises",
    "C100_right",
    "C100_lost_fails",
    "C100_digits_refuted",
    "C100_digits_partial",
    "C100_undiscounted_fails"
   ],
   "note": "Proved: finite, not negative, never falling with years or annual cost, and right to 2^-48 of annual cost over rate. That it is right to nearly all of its own digits is false: where rate times years is below 2^-55 the cost is zero, and for a rate of zero not a number. Proved instead: 47 binary digits, less one for each that rate times years is below one."
  },
  {
   "property": "C101",
   "status": "partial",
   "theorems": [
    "C101_accepted_refuted",
    "C101_accepted_partial",
    "C101_number",
    "C101_history",
    "C101_outside",
    "C101_between",
    "C101_points_refuted",
    "C101_points_partial"
   ],
   "note": "Proved, for every table that can be made: values are positive numbers, do not depend on earlier calls, are the outer ordinates in every bit outside the table, and lie between the neighbouring ordinates to 2^-39; and, for arguments 2^-38 apart, on the power through them to 2^-38 times one plus the slope. That every table can be made is false: two arguments next to each other can have the same logarithm, and the GSL then ends the program; proved for arguments 2^-38 apart. That values at the points are the ordinates is false in the last bits; proved to 2^-39."
  },
  {
   "property": "C102",
   "status": "partial",
   "theorems": [
    "C102_beyond_fails",
    "C102_number_refuted",
    "C102_number_partial",
    "C102_ends",
    "C102_order",
    "C102_right"
   ],
   "note": "That every value is a number is false: where the power is beyond the greatest double the value is infinite, and not a number for a factor of zero. Proved where the power is from 2^-600 to 2^500: finite, not negative, in order, and right to 49 binary digits; the values at zero and one."
  },
  {
   "property": "C103",
   "status": "partial",
   "theorems": [
    "C103_logs",
    "C103_mean",
    "C103_zero",
    "C103_median_refuted",
    "C103_median_partial",
    "C103_small_fails",
    "C103_nothing_fails",
    "C103_endless_fails",
    "C103_both_partial"
   ],
   "note": "Proved: parameters of the logarithm in every bit, means and medians to 2^-39, variances to 2^-34 of the second moment, zero for a mean of zero with a deviation of the logarithm. False: some medians do not come back exactly; deviations below 2^-27 of the mean come back as none; a mean and a deviation of zero give no numbers; with a deviation but no mean the calls never end."
  },
  {
   "property": "C104",
   "status": "partial",
   "theorems": [
    "C104_same_refuted",
    "C104_same_partial",
    "C104_other_fails",
    "C104_never_negative",
    "C104_chance",
    "C104_missing",
    "C104_back",
    "C104_zero"
   ],
   "note": "Proved: all figures agree in every bit unless the mean and the deviation are given and the mean is zero; distributions give back what they are made of, as functions do (C103); probabilities and quantiles are never negative. Refuted: for a mean and a deviation of zero, the mean of the distribution is zero and that of the function is not a number. For kinds that make no distribution, the distribution has no numbers and the function never returns."
  },
  {
   "property": "C105",
   "status": "proved",
   "theorems": [
    "C105_linear",
    "C105_falling_fails",
    "C105_stepped",
    "C105_log",
    "C105_log_refused"
   ],
   "note": "For the ranges in the quantifier, of which linear and stepped ones rise. Outside it: linear ranges that fall are empty and those with equal ends never end (C105_falling_fails); C50_rounding_refuted shows a narrower range that never ends. The exception math.exp raises on overflow is left out; within these bounds nothing overflows."
  }
 ]
}