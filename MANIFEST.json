{
 "claims": [
  {
   "property": "C01",
   "status": "proved",
   "theorems": [
    "C01_fact_equality_extensional"
   ],
   "note": "For all well-formed constant chunks with any nesting."
  },
  {
   "property": "C02",
   "status": "proved",
   "theorems": [
    "C02_equality_is_equivalence",
    "C02_equality_is_congruence"
   ],
   "note": "Equivalence for all chunks; congruence for values and negated values in all slots."
  },
  {
   "property": "C03",
   "status": "proved",
   "theorems": [
    "C03_constant_pattern_matching",
    "C03_constant_pattern_proper_part"
   ],
   "note": "Both <= and <; the bindings are unchanged."
  },
  {
   "property": "C04",
   "status": "proved",
   "theorems": [
    "C04_order_on_facts",
    "C04_explicit_none_refuted"
   ],
   "note": "For facts whose written slots hold non-empty constants; with an explicit 'None' transitivity is refuted."
  },
  {
   "property": "C05",
   "status": "partial",
   "theorems": [
    "C05_equal_patterns_match_alike_partial",
    "C05_equal_patterns_refuted"
   ],
   "note": "Proved for patterns (with variables and negations) that do not demand 'None'; the unrestricted statement is refuted by a witness."
  },
  {
   "property": "C06",
   "status": "partial",
   "theorems": [
    "C06_match_sound_partial",
    "C06_match_refuted"
   ],
   "note": "Proved under name and None guards; without the name guard the claim is refuted (variable names are read letter by letter in the hash)."
  },
  {
   "property": "C07",
   "status": "partial",
   "theorems": [
    "C07_match_complete_partial",
    "C07_match_complete_refuted"
   ],
   "note": "Proved if None and 'None' are not mixed and a slot demanded to be 'None' exists in the target; otherwise refuted."
  },
  {
   "property": "C08",
   "status": "proved",
   "theorems": [
    "C08_matching_never_rebinds"
   ],
   "note": "For every pattern, chunk and bindings, whether the match succeeds or fails."
  },
  {
   "property": "C09",
   "status": "proved",
   "theorems": [
    "C09_testing_changes_nothing",
    "C09_requests_keep_bindings"
   ],
   "note": "For every run of the procedural process with arbitrary interference on buffers and modules."
  },
  {
   "property": "C10",
   "status": "proved",
   "theorems": [
    "C10_at_most_one_chunk",
    "C10_at_most_one_in_simulations",
    "C10_at_most_one_in_sessions",
    "C10_at_most_one_in_life"
   ],
   "note": "For all histories of the modelled calls on all five buffer kinds, including calls that raise; and throughout every simulation that starts with at most one chunk per buffer. Also proved for all sequences of run() and step(), even if the last call raises an exception. And over any number of simulations of a model."
  },
  {
   "property": "C100",
   "status": "proved",
   "theorems": [
    "C100_step",
    "C100_steps"
   ],
   "note": "For every session of run() and step(), every environment of environment.py and every firing time, also 0."
  },
  {
   "property": "C101",
   "status": "proved",
   "theorems": [
    "C101_never_late",
    "C101_nobody_left",
    "C101_logged_or_interrupted",
    "C101_never_late_in_sessions",
    "C101_nobody_left_in_sessions"
   ],
   "note": "For all simulations with and without environments."
  },
  {
   "property": "C102",
   "status": "partial",
   "theorems": [
    "C102_removed",
    "C102_count_bounds_partial",
    "C102_count_exact_partial",
    "C102_count_refuted"
   ],
   "note": "The removal itself is exact.  The full claim about the counts is false: the Counters are not updated by __delitem__, so counts of values asked for before a removal stay too high (C102_count_refuted).  Proved: the count is never too low, is too high by at most the slots removed since the value was first asked for, and is exact if nothing is removed after that."
  },
  {
   "property": "C103",
   "status": "partial",
   "theorems": [
    "C103_printed_alike_partial",
    "C103_printed_alike_refuted",
    "C103_read_again_partial",
    "C103_read_again_refuted"
   ],
   "note": "False in full: a quoted text '=x' and the variable =x are printed alike, and the printed form leaves out the sign ! of values, so that value and variable together and negated values are not read back (both refutations proved).  Proved: texts are injective on chunks (nested to any depth, with variables and negations) whose strings are non-empty and contain no separators; slots with variables only or a value only are read back."
  },
  {
   "property": "C104",
   "status": "partial",
   "theorems": [
    "C104_seen_early_refuted",
    "C104_two_keys_refuted",
    "C104_busy_partial",
    "C104_visual_partial"
   ],
   "note": "False in full, in two ways (both refutations proved): the visual module is free as soon as the object is seen, while the movement of the eyes is still being prepared; and when a key is requested during the movement for an earlier key, the end of the earlier movement makes the module free while the later key is being pressed (in a simulation).  Proved for every action of a rule: as long as nothing else changes the module, it is busy whenever time passes before the action is complete; for shifts of attention the processor is busy.  Missing: other actions upon the same buffer in between."
  },
  {
   "property": "C105",
   "status": "partial",
   "theorems": [
    "C105_own_memory_refuted",
    "C105_settings_refuted",
    "C105_copy_partial",
    "C105_pair_partial",
    "C105_original_kept_partial",
    "C105_copy_kept_partial"
   ],
   "note": "Refuted: without an argument the copy of a retrieval buffer shares the memory of the original (against its documentation), and finst and delay are lost. Proved: what is copied, for all histories; and that a buffer copied with a copy of its memory is independent, for all later calls on either side."
  },
  {
   "property": "C106",
   "status": "partial",
   "theorems": [
    "C106_keyword_only_refuted",
    "C106_exactly_partial",
    "C106_fails_partial",
    "C106_failed",
    "C106_order"
   ],
   "note": "Refuted for parameters after a star (keyword-only), whose defaults are ignored silently. Proved exactly for all other signatures; the failing calls are characterised."
  },
  {
   "property": "C107",
   "status": "partial",
   "theorems": [
    "C107_time_refuted",
    "C107_exception_refuted",
    "C107_loses_partial",
    "C107_trace_partial",
    "C107_whole_partial"
   ],
   "note": "Refuted: the time given to run() is not used, the run goes on until nothing is left to do and then leaves the program; an exception of the model is lost. Proved: whenever run() without a window is ended by an exception, a run in a window gets to the same state and cannot end by itself; what is shown is the trace without repeated events; a run that ends by itself is in the state of any run that is long enough, before the last compilation."
  },
  {
   "property": "C108",
   "status": "proved",
   "theorems": [
    "C108_given_in_sessions",
    "C108_alone_in_sessions",
    "C108_alone",
    "C108_given",
    "C108_kept"
   ],
   "note": "Without environment the screen never changes; with environment_process it is the initial one or a given one; for any environment, every property of the screen that the steps of the environment keep is kept from any moment on. Also proved for all sequences of run() and step()."
  },
  {
   "property": "C109",
   "status": "partial",
   "theorems": [
    "C109_blank_refuted",
    "C109_text_refuted",
    "C109_window_partial"
   ],
   "note": "Refuted: an empty screen is not drawn, the window keeps the last one; stimuli given as texts raise an exception in the code that draws. Proved for all models and moments when every screen has objects, all with a text and only with keys that tkinter knows."
  },
  {
   "property": "C11",
   "status": "partial",
   "theorems": [
    "C11_modify_exact_partial",
    "C11_modify_frame_partial",
    "C11_modify_succeeds_partial",
    "C11_comparison_sign_refuted"
   ],
   "note": "Exact effect proved for slots without the comparison signs '<' and '>'; unmentioned empty slots are rewritten as 'None' (kept up to emptiness). With '>' the claim is refuted (the slot becomes '>>>>')."
  },
  {
   "property": "C110",
   "status": "partial",
   "theorems": [
    "C110_refuted",
    "C110_slot_partial",
    "C110_missing_partial",
    "C110_dict",
    "C110_iteration",
    "C110_positions",
    "C110_outside"
   ],
   "note": "Refuted: chunk.match is the method even if the chunk has a slot match, and likewise for six other names. Proved for all other names; _asdict, iteration, len and positions give all slots whatever their names."
  },
  {
   "property": "C111",
   "status": "partial",
   "theorems": [
    "C111_buffers_partial",
    "C111_visual",
    "C111_different",
    "C111_manual_refuted",
    "C111_setter_refuted",
    "C111_goal_partial",
    "C111_goal_error",
    "C111_retrieval_partial",
    "C111_retrieval_error",
    "C111_shadow_refuted",
    "C111_goal_used_partial"
   ],
   "note": "Refuted: after model.goal = name, model.goal raises ValueError unless the name is g; a goal buffer named manual is replaced; model.goal may be a buffer that no rule reaches. Proved: all other names stand for the buffer returned last, also over several simulations; when exactly model.goal and model.retrieval raise; model.goal is the buffer g of rules if no other kind of buffer has that name."
  },
  {
   "property": "C112",
   "status": "partial",
   "theorems": [
    "C112_fixed_in_life_partial",
    "C112_learning_in_life_partial",
    "C112_compiling_in_life_partial",
    "C112_refuted",
    "C112_fixed_partial",
    "C112_learning_partial",
    "C112_compiling_partial"
   ],
   "note": "Refuted with utility learning: a model that is run twice with the same goal fires another rule the second time. Proved for all sequences of run() and step(), with environments: without learning and compilation nothing changes; without compilation only utilities change; in any case the rules of the modeller stay and keep conditions, actions and rewards."
  },
  {
   "property": "C113",
   "status": "proved",
   "theorems": [
    "C113_preparing_keeps"
   ],
   "note": "For every outcome of simulation(). Which memory a buffer uses afterwards is C64, under which name it is used C111."
  },
  {
   "property": "C114",
   "status": "partial",
   "theorems": [
    "C114_rules_stay_refuted",
    "C114_exactly_partial",
    "C114_failed",
    "C114_order_partial"
   ],
   "note": "False for set_productions, which drops all rules defined before (refuted). Proved exactly which rule has a name after any sequence of calls, that failing calls change nothing, and the order of rules written as strings. Guard: functions do not have utility or reward after a star (as in C106)."
  },
  {
   "property": "C115",
   "status": "proved",
   "theorems": [
    "C115_one_story",
    "C115_same_clock",
    "C115_same_exception",
    "C115_real"
   ],
   "note": "Random numbers are the same in both simulations (they are functions of the state in the model); compilation is the compile_rules of the code (compiles_with)."
  },
  {
   "property": "C116",
   "status": "proved",
   "theorems": [
    "C116_copy",
    "C116_delete",
    "C116_missing",
    "C116_failed",
    "C116_genuine",
    "C116_others"
   ],
   "note": "For assignments of mappings and of existing rules. Deleting a key of a single rule and the identity of the objects are not modelled."
  },
  {
   "property": "C12",
   "status": "partial",
   "theorems": [
    "C12_failed_modification_loses_chunk_partial",
    "C12_failed_creation_keeps_chunk_partial",
    "C12_buffer_kept_refuted"
   ],
   "note": "Refuted: every failed modification empties the buffer (proved for all worlds). A failed creation changes nothing."
  },
  {
   "property": "C13",
   "status": "partial",
   "theorems": [
    "C13_clear_conserves_partial",
    "C13_clear_empty",
    "C13_clear_without_memory",
    "C13_motor_buffer_refuted"
   ],
   "note": "Proved for goal, retrieval and both visual buffers; refuted for the motor buffer, whose inherited clear drops the chunk."
  },
  {
   "property": "C14",
   "status": "proved",
   "theorems": [
    "C14_add_saves_old_chunk",
    "C14_add_to_empty_buffer",
    "C14_add_without_memory"
   ],
   "note": "Also covers arguments that are no chunks, empty buffers and buffers without memory."
  },
  {
   "property": "C15",
   "status": "partial",
   "theorems": [
    "C15_goal_add_never_saves_partial",
    "C15_goal_add_saves_refuted"
   ],
   "note": "Refuted: Goal.add never touches a memory (proved for all worlds)."
  },
  {
   "property": "C16",
   "status": "proved",
   "theorems": [
    "C16_add_appends_time",
    "C16_history_of_adds"
   ],
   "note": "Single additions on any memory and all histories of additions."
  },
  {
   "property": "C17",
   "status": "proved",
   "theorems": [
    "C17_memory_never_forgets",
    "C17_never_forgets_in_simulations",
    "C17_never_forgets_in_sessions",
    "C17_never_forgets_in_life"
   ],
   "note": "For all histories of the modelled calls, including failing ones, and throughout every simulation. Also proved for all sequences of run() and step(), even if the last call raises an exception. And over any number of simulations of a model."
  },
  {
   "property": "C18",
   "status": "proved",
   "theorems": [
    "C18_fan_counts_exact"
   ],
   "note": "For all histories of add, item assignment, strength queries and copies; sources are strings or chunks, slots do not hold the EmptyValue object."
  },
  {
   "property": "C19",
   "status": "partial",
   "theorems": [
    "C19_retrieval_sound_complete_partial",
    "C19_comparison_sign_refuted"
   ],
   "note": "Proved for memories of facts and requests without the signs '<' and '>'; with '>' the claim is refuted."
  },
  {
   "property": "C20",
   "status": "partial",
   "theorems": [
    "C20_retrieval_pure_and_last_partial",
    "C20_retrieval_time"
   ],
   "note": "As C19; also the time that a symbolic retrieval takes."
  },
  {
   "property": "C21",
   "status": "partial",
   "theorems": [
    "C21_recent_bounded_in_life_partial",
    "C21_recent_bounded_in_simulations_partial",
    "C21_recent_bounded_partial",
    "C21_recent_are_last_results_partial",
    "C21_requests_respect_finsts_partial",
    "C21_lowered_finsts_refuted",
    "C21_no_finsts_refuted",
    "C21_recent_bounded_in_sessions_partial"
   ],
   "note": "Proved for a constant positive number of finsts, for histories of calls and for whole simulations; refuted when the number is lowered and when it is 0. Also proved for all sequences of run() and step(), even if the last call raises an exception."
  },
  {
   "property": "C22",
   "status": "partial",
   "theorems": [
    "C22_most_active_chunk_partial",
    "C22_undefined_activation_partial",
    "C22_total_activation_partial",
    "C22_raised_activation_partial"
   ],
   "note": "As C19 for the request; activations, noise and latency are arbitrary. First entry wins ties; error exactly when the activation of a competing chunk cannot be calculated."
  },
  {
   "property": "C23",
   "status": "proved",
   "theorems": [
    "C23_latency_decreases",
    "C23_failure_takes_longest"
   ],
   "note": "Latency is positive and strictly decreasing; every retrieval takes at most the latency of the threshold, failed ones exactly that, whatever the request, memory and noise."
  },
  {
   "property": "C24",
   "status": "partial",
   "theorems": [
    "C24_practice",
    "C24_decay",
    "C24_recency_partial",
    "C24_recency_optimized_partial",
    "C24_recency_optimized_refuted",
    "C24_optimized_decay_refuted",
    "C24_optimized_overestimates"
   ],
   "note": "Practice and decay hold strictly for both formulas (optimized learning needs decay < 1, refuted otherwise). Recency holds strictly for the exact formula; with optimized learning only not-less holds and the strict claim is refuted. Optimized learning is also shown to overestimate."
  },
  {
   "property": "C25",
   "status": "proved",
   "theorems": [
    "C25_weight_divided",
    "C25_spreading_exact",
    "C25_nothing_shared"
   ],
   "note": "Weights are equal shares summing to the weight of the buffer; after every history the result is the documented double sum; nothing is received without shared sources."
  },
  {
   "property": "C26",
   "status": "proved",
   "theorems": [
    "C26_score_never_positive",
    "C26_score_zero_iff_match",
    "C26_score_is_sum_of_penalties"
   ],
   "note": "Non-positivity and zero-iff-match for all patterns (variables and negations included); sum of penalties for constant patterns. Similarities are rationals."
  },
  {
   "property": "C27",
   "status": "proved",
   "theorems": [
    "C27_similarities",
    "C27_cases",
    "C27_positive_rejected"
   ],
   "note": "Values other than chunks (texts, None) are covered, too. Equality of keys is equality of hashed tuples."
  },
  {
   "property": "C28",
   "status": "partial",
   "theorems": [
    "C28_best_rule_partial",
    "C28_best_rule_right_order_partial",
    "C28_best_rule_refuted"
   ],
   "note": "Proved as long as the order of the rules agrees with their utilities (in particular for the order computed at the start); refuted after utility learning, which does not update the order."
  },
  {
   "property": "C29",
   "status": "proved",
   "theorems": [
    "C29_best_noisy_rule",
    "C29_no_rule_matches"
   ],
   "note": "Noise samples are arbitrary."
  },
  {
   "property": "C30",
   "status": "proved",
   "theorems": [
    "C30_actions_once_in_order",
    "C30_unknown_sign_changes_nothing"
   ],
   "note": "For all right-hand sides with signs of the grammar; the empty key is excluded in the second theorem. That the actions are executed with their effects is C56."
  },
  {
   "property": "C31",
   "status": "partial",
   "theorems": [
    "C31_strict_harvesting_partial",
    "C31_no_harvesting",
    "C31_strict_harvesting_refuted"
   ],
   "note": "Proved unless a variable of the left-hand side has the name of a buffer; then refuted."
  },
  {
   "property": "C32",
   "status": "partial",
   "theorems": [
    "C32_utility_learning_partial",
    "C32_uses_recorded",
    "C32_unused_rules_keep_utility",
    "C32_no_overshoot",
    "C32_utility_learning_refuted"
   ],
   "note": "Proved for rules selected since the last reward, without production compilation; refuted for rules that fired, since a stopped rule is rewarded, too."
  },
  {
   "property": "C33",
   "status": "partial",
   "theorems": [
    "C33_result_is_ground",
    "C33_resolved_or_actrerror_partial",
    "C33_crash_refuted"
   ],
   "note": "Results are always ground. Resolved-or-ACTRError proved without '<'/'>' marks, without variables bound to empty slots and without lone unbound negated variables; the last two are refuted by witnesses (UnboundLocalError)."
  },
  {
   "property": "C34",
   "status": "proved",
   "theorems": [
    "C34_rounding_monotone",
    "C34_rounding_idempotent",
    "C34_rounding_close",
    "C34_halfway_goes_to_even"
   ],
   "note": "For all rational times; the binary float is read as its exact value."
  },
  {
   "property": "C35",
   "status": "partial",
   "theorems": [
    "C35_chunktype_slots",
    "C35_new_chunk_slots",
    "C35_types_stay_sorted",
    "C35_new_chunks_well_formed",
    "C35_special_types_fixed_partial",
    "C35_special_types_refuted"
   ],
   "note": "Slot sets, inheritance and histories proved; 'special types cannot be extended' holds unless include is given for a special type, which is refuted."
  },
  {
   "property": "C36",
   "status": "partial",
   "theorems": [
    "C36_isa_refuted",
    "C36_default_refuted",
    "C36_defaults_have_no_effect"
   ],
   "note": "Refuted: isa/ISA are accepted and defaults never have an effect (proved for all registries)."
  },
  {
   "property": "C37",
   "status": "proved",
   "theorems": [
    "C37_marked_text_is_split",
    "C37_plain_text_is_value",
    "C37_unmarked_value_lost"
   ],
   "note": "For all lists of parts with non-empty names; in addition it is proved that an unmarked value in front of marked parts is dropped."
  },
  {
   "property": "C38",
   "status": "proved",
   "theorems": [
    "C38_screens_in_order",
    "C38_others_rejected",
    "C38_environment_is_outside"
   ],
   "note": "For the environment process alone, interleaved with anything: one step per screen in order, at the given times, all others rejected with ACTRError. Times are announced times; how long a screen is really shown when a key ends its predecessor is C59."
  },
  {
   "property": "C39",
   "status": "partial",
   "theorems": [
    "C39_known_keys",
    "C39_known_keys_in_simulations",
    "C39_unknown_keys_rejected",
    "C39_phases",
    "C39_no_overlap_partial",
    "C39_no_overlap_refuted",
    "C39_known_keys_in_sessions"
   ],
   "note": "Only known keys are pressed (requests and whole simulations), requests for others are rejected before anything is announced, phases with documented durations, non-negative preparation. Non-overlap is refuted by a simulation of three presses; it holds if the end of the first movement is still recorded when the second starts. Also proved for all sequences of run() and step(), even if the last call raises an exception."
  },
  {
   "property": "C40",
   "status": "partial",
   "theorems": [
    "C40_preparation_partial",
    "C40_always_100_ms",
    "C40_preparation_refuted"
   ],
   "note": "Refuted: hands and movement classes are compared on objects that are never in the lists of keys, so a different key always saves 100 ms (proved). Proved as documented for the first key, the same key, and keys of the same hand and movement class."
  },
  {
   "property": "C41",
   "status": "partial",
   "theorems": [
    "C41_search_partial",
    "C41_best_partial",
    "C41_returns",
    "C41_location_buffer_partial",
    "C41_two_superlatives_refuted",
    "C41_order_refuted",
    "C41_closest_refuted",
    "C41_negated_text_never_found",
    "C41_negated_text_refuted",
    "C41_negated_place_refuted",
    "C41_textless_refuted"
   ],
   "note": "Proved for requests of texts, absolute and relative positions and superlatives, for the search and for its effect on the buffer. Refuted: with two superlatives only Pareto-optimal objects are found and the order of objects matters; 'closest' only in screen_y is ignored; negated texts are never found and negated positions ignored; an object without text makes searches for texts fail."
  },
  {
   "property": "C42",
   "status": "partial",
   "theorems": [
    "C42_reports_partial",
    "C42_reports_refuted"
   ],
   "note": "Refuted: the last object that passed the earlier tests is reported. Proved if every object shows only features that were asked for."
  },
  {
   "property": "C43",
   "status": "proved",
   "theorems": [
    "C43_time_never_runs_backwards",
    "C43_clock_never_goes_back",
    "C43_time_never_runs_backwards_in_sessions"
   ],
   "note": "For every state that a simulation can reach: the log is sorted by time, each event is logged at the time it bears, and no step moves the clock back. simpy is modelled from its documentation (Sim.v). GUI and real time mode are not modelled."
  },
  {
   "property": "C44",
   "status": "proved",
   "theorems": [
    "C44_run_of_procedural_process",
    "C44_one_rule_at_a_time",
    "C44_runs_one_after_another",
    "C44_one_rule_at_a_time_in_sessions"
   ],
   "note": "For all simulations in which the environment does not change rules, bindings and parameters (which no environment process of the code does)."
  },
  {
   "property": "C45",
   "status": "partial",
   "theorems": [
    "C45_fires_only_if_matching_partial",
    "C45_actions_run_while_matching_refuted"
   ],
   "note": "Proved for the test at firing time; refuted for the actions, before which the process waits again."
  },
  {
   "property": "C46",
   "status": "partial",
   "theorems": [
    "C46_no_late_effect_partial",
    "C46_no_late_effect_refuted"
   ],
   "note": "Proved: once the process of a request has received the interruption it is over and never runs again, so it causes no later effect. Refuted as stated for continuations of visual requests, which are started as separate processes and are not interrupted (C46_no_late_effect_refuted)."
  },
  {
   "property": "C47",
   "status": "proved",
   "theorems": [
    "C47_unknown_rejected",
    "C47_values_and_defaults"
   ],
   "note": "Keyword arguments have distinct names. The documented defaults are transcribed from the class documentation, separately from the code."
  },
  {
   "property": "C48",
   "status": "partial",
   "theorems": [
    "C48_memories_added_refuted",
    "C48_memories_added_partial"
   ],
   "note": "Refuted for every sequence of calls on a new model: there is always exactly one memory. Proved when there are several already and the generated name is free."
  },
  {
   "property": "C49",
   "status": "partial",
   "theorems": [
    "C49_refuted",
    "C49_capture_refuted",
    "C49_never_reported",
    "C49_apart_partial"
   ],
   "note": "False of the code: the checks look for names with a leading '=' in a set of plain names, so no clash is ever reported, and a rule with a variable y__rule__two captures the renamed y; a simulation ends with a wrong value.  Proved when no variable of the first rule has such a name."
  },
  {
   "property": "C50",
   "status": "partial",
   "theorems": [
    "C50_refuted",
    "C50_plain_pairs_partial"
   ],
   "note": "False of the code: when a variable of the second rule occurs in two slots that the first rule tests with two different variables, the test that both slots are equal is lost.  Refuted by a simulation.  Proved for pairs of rules that test and modify one buffer with texts and variables kept apart (plain_pair), in any state whose buffer holds texts.  Missing: several buffers, queries, retrievals, negations, slots holding chunks or nothing."
  },
  {
   "property": "C51",
   "status": "proved",
   "theorems": [
    "C51_compile",
    "C51_rules_kept"
   ],
   "note": "For every call of compile_rules and between any two moments of any simulation.  'Identical' is Python's == on the sides, spelled out as saying the same about every slot; the names of chunk types are not compared."
  },
  {
   "property": "C52",
   "status": "partial",
   "theorems": [
    "C52_round_trip_partial",
    "C52_types_proper",
    "C52_meaning_partial",
    "C52_made",
    "C52_conflict",
    "C52_layout",
    "C52_others",
    "C52_tab_refuted",
    "C52_negated_refuted",
    "C52_name_refuted",
    "C52_type_name_refuted",
    "C52_isa_refuted"
   ],
   "note": "False of the code: a tab between quotes becomes blanks; an unquoted value that is the name of a chunk (also of the last chunk made without a name, 'unnamedchunk') becomes that chunk; numbers like 3.5 and quoted phrases cannot be negated; a chunk with the name of its type makes the type unusable; 'ISA' alone is a slot.  Proved: round trip for every layout without these cases; with signs and repeated slots the chunk says what the string says; conflicts raise ACTRError; all other texts raise ParseException.  pyparsing is modelled from its source."
  },
  {
   "property": "C53",
   "status": "partial",
   "theorems": [
    "C53_memories_independent_partial",
    "C53_copy_looks_like_original_partial",
    "C53_memories_are_values_partial",
    "C53_shared_array_refuted"
   ],
   "note": "Proved (memories behave as values) for all histories without assignments to array elements; refuted with them, because copies share their arrays."
  },
  {
   "property": "C54",
   "status": "partial",
   "theorems": [
    "C54_initialised_with_chunks_partial",
    "C54_two_slots_refuted"
   ],
   "note": "Proved unless the first chunk has exactly two slots; then it is refuted (ACTRError)."
  },
  {
   "property": "C55",
   "status": "partial",
   "theorems": [
    "C55_comparison_with_variable_refuted"
   ],
   "note": "Refuted: rejected for all bindings, variables and values."
  },
  {
   "property": "C56",
   "status": "partial",
   "theorems": [
    "C56_actions_take_effect_partial",
    "C56_delayed_modification_partial",
    "C56_new_goal",
    "C56_overwriting",
    "C56_creating",
    "C56_actions_take_effect_refuted"
   ],
   "note": "Proved for all right-hand sides and interleavings, except that nothing is claimed about modifying visual-location buffers (refuted: bound variables count as unbound there) and about Python code called by execute actions."
  },
  {
   "property": "C57",
   "status": "proved",
   "theorems": [
    "C57_retrieval"
   ],
   "note": "For all memories, requests, answers and interleavings."
  },
  {
   "property": "C58",
   "status": "partial",
   "theorems": [
    "C58_without_triggers_refuted",
    "C58_without_triggers_partial"
   ],
   "note": "Refuted as stated: the default triggers=None is an ACTRError. Proved for the empty text."
  },
  {
   "property": "C59",
   "status": "partial",
   "theorems": [
    "C59_display_time_refuted",
    "C59_display_time_partial"
   ],
   "note": "Refuted by a whole simulation: after a key has ended a screen the next one is shown too long. Proved: announcements are the given time apart."
  },
  {
   "property": "C60",
   "status": "partial",
   "theorems": [
    "C60_start_time_refuted",
    "C60_start_time_partial"
   ],
   "note": "Refuted: start_time 0.5 ends the simulation with a ValueError. Proved for start_time 0."
  },
  {
   "property": "C61",
   "status": "partial",
   "theorems": [
    "C61_keys_refuted",
    "C61_press_partial"
   ],
   "note": "Refuted by two whole simulations that end with a RuntimeError. Guarded: in every simulation with any environment, the process that presses a key gets a RuntimeError only if the key is a trigger and the environment is over or got a trigger key at this very moment before. Missing: when the environment, having got the key, can take the old screen away."
  },
  {
   "property": "C62",
   "status": "partial",
   "theorems": [
    "C62_one_request_partial",
    "C62_two_actions_refuted"
   ],
   "note": "Refuted by a whole simulation that ends with an uncaught Interrupt. Guarded: if no rule contains both +g and *g for one buffer, no simulation without environment ends with an Interrupt or a RuntimeError. Missing: environments."
  },
  {
   "property": "C63",
   "status": "partial",
   "theorems": [
    "C63_completed_partial",
    "C63_undisturbed_partial",
    "C63_harvest_cancels_retrieval_refuted"
   ],
   "note": "Refuted with strict harvesting by a whole simulation. Guarded version: in every simulation, also with environments, a request in progress goes on at its time and undisturbed as long as nothing else that concerns the buffer (request, setting, clearing, strict harvesting, automatic vision) waits to be started and no interruption is under way. Missing: that settings and clearings do not cancel it, which is false."
  },
  {
   "property": "C64",
   "status": "partial",
   "theorems": [
    "C64_only_filled_memory_refuted",
    "C64_only_memory_partial",
    "C64_several_memories_partial"
   ],
   "note": "Refuted for several memories: preparing the simulation is a ValueError whenever some buffer needs the rule. Proved for one memory, and for several if no buffer needs one."
  },
  {
   "property": "C65",
   "status": "partial",
   "theorems": [
    "C65_environment_keeps_model",
    "C65_parameters_kept_partial",
    "C65_parameters_kept_refuted",
    "C65_parameters_kept_in_sessions_partial"
   ],
   "note": "Refuted: the first key press unsets motor_prepared, and a second simulation of the model presses the key later. Proved for all other parameters, the names of buffers and memories; motor_prepared can only be unset. Also proved for all sequences of run() and step(), even if the last call raises an exception."
  },
  {
   "property": "C66",
   "status": "partial",
   "theorems": [
    "C66_parameters_shared_refuted",
    "C66_parameters_shared_partial"
   ],
   "note": "Refuted for the default of buffer_spreading_activation, a dictionary shared by all models. Proved if the two parameters are not the same object."
  },
  {
   "property": "C67",
   "status": "partial",
   "theorems": [
    "C67_busy_forever_refuted",
    "C67_free_again_partial",
    "C67_calls_partial",
    "C67_commands_partial",
    "C67_commands_calls_partial"
   ],
   "note": "Refuted: the command 'None' of the visual module sets it busy for ever. Proved without such requests to the buffer, for runs of the simulation and for all sequences of run() and step(), under the hypotheses of C90. Missing: environments (automatic visual search leaves the module of the visual location busy). The guard about the command None also holds if the rules name their commands (a condition on the rules only, kept by compilation)."
  },
  {
   "property": "C68",
   "status": "partial",
   "theorems": [
    "C68_own_similarities_refuted",
    "C68_own_similarities_partial"
   ],
   "note": "Refuted if a simulation of another model is prepared afterwards. Proved for the simulation that was prepared last."
  },
  {
   "property": "C69",
   "status": "partial",
   "theorems": [
    "C69_comparison_refuted"
   ],
   "note": "Refuted: always an error, for all screens, variables and values."
  },
  {
   "property": "C70",
   "status": "partial",
   "theorems": [
    "C70_attend_found_partial",
    "C70_encodes",
    "C70_returns",
    "C70_fractional_refuted",
    "C70_half_refuted",
    "C70_same_place_refuted"
   ],
   "note": "Refuted for objects between pixels (error) and for several objects at one position (the last one is encoded). Proved for objects on pixels, alone at their position."
  },
  {
   "property": "C71",
   "status": "proved",
   "theorems": [
    "C71_automatic_search"
   ],
   "note": "For every search that returns; distances are compared squared."
  },
  {
   "property": "C72",
   "status": "partial",
   "theorems": [
    "C72_present_ignored_partial",
    "C72_two_present_refuted",
    "C72_optimized_present_refuted"
   ],
   "note": "One presentation that is not in the past is ignored by the exact formula. Refuted for two (RuntimeWarning) and for optimized learning (ValueError)."
  },
  {
   "property": "C73",
   "status": "partial",
   "theorems": [
    "C73_future_trace_refuted"
   ],
   "note": "False of the code: base levels never raise ACTRError and one future trace is silently ignored; refutation proved."
  },
  {
   "property": "C74",
   "status": "partial",
   "theorems": [
    "C74_given_activation_refuted"
   ],
   "note": "False of the code for every activation a: the result is ln(1+e^a) > max(a,0); refutation proved."
  },
  {
   "property": "C75",
   "status": "partial",
   "theorems": [
    "C75_documented_fan_partial",
    "C75_repeated_value_refuted"
   ],
   "note": "Holds for memories in which no chunk has the source in two slots; refuted otherwise."
  },
  {
   "property": "C76",
   "status": "partial",
   "theorems": [
    "C76_refuted",
    "C76_failed_retrieval",
    "C76_only_actr_partial"
   ],
   "note": "False of the code: TypeError after a failed retrieval (in general: whenever a recorded retrieval is not tested by the second rule and the buffer is empty), KeyError for chunk types with other slots.  Proved: without retrievals and with the same slots only ACTRError can be raised."
  },
  {
   "property": "C77",
   "status": "proved",
   "theorems": [
    "C77_unsafe_pairs"
   ],
   "note": "All four cases."
  },
  {
   "property": "C78",
   "status": "partial",
   "theorems": [
    "C78_step",
    "C78_approaches_partial",
    "C78_reached_refuted"
   ],
   "note": "Equality is never reached in general: utilities are rounded to four decimals, so the learning gets stuck (C78_reached_refuted).  Proved: the step itself, geometric approach up to 1/(20000 alpha) for any number of creations, and no overshoot for utilities of at most four decimals."
  },
  {
   "property": "C79",
   "status": "proved",
   "theorems": [
    "C79_retrieval_gone"
   ],
   "note": "For new compiled rules with one recorded retrieval."
  },
  {
   "property": "C80",
   "status": "partial",
   "theorems": [
    "C80_refuted",
    "C80_actions_partial",
    "C80_conditions",
    "C80_queries_partial",
    "C80_query_refuted"
   ],
   "note": "False of the code: of several actions of the first rule on one buffer only the first is kept, so a search with an extra test loses the search.  Proved for first rules with one action per buffer; the claim about conditions is proved in general.  Queries: kept unless the first rule acts on the buffer otherwise or the second rule asks for the same thing (refuted without this exception: the second rule's query overrides the first's)."
  },
  {
   "property": "C81",
   "status": "partial",
   "theorems": [
    "C81_refuted",
    "C81_ranked_partial",
    "C81_order_partial",
    "C81_session_partial"
   ],
   "note": "False of the code: a rule that is compiled again is appended to the list again.  Proved: the list has all rules and no others, in all simulations; it never changes without compilation. The ranking is also proved for all sequences of run() and step()."
  },
  {
   "property": "C82",
   "status": "partial",
   "theorems": [
    "C82_refuted",
    "C82_negation_refuted",
    "C82_plain_pairs_partial"
   ],
   "note": "False of the code: a slot set by the first rule and tested by the second is tested before it is set; negations tested by the first rule are copied into the action.  Proved for the same pairs as C50 if the first rule tests what it sets and the second one tests."
  },
  {
   "property": "C83",
   "status": "partial",
   "theorems": [
    "C83_rule_partial",
    "C83_layout",
    "C83_others",
    "C83_nameless_refuted",
    "C83_repeated_refuted",
    "C83_query_refuted",
    "C83_names_refuted"
   ],
   "note": "False of the code: of two groups with the same sign and buffer only the last is kept; quoted values in queries keep their quotes; names of chunks are looked up when the rule is tried, so naming a chunk changes rules; a rule without a name raises TypeError.  Proved: the last group of every sign and buffer is kept as written, for every layout; texts (without tabs) that are no rules, and no others, raise ACTRError."
  },
  {
   "property": "C84",
   "status": "partial",
   "theorems": [
    "C84_refuted",
    "C84_untouched_partial",
    "C84_one_buffer",
    "C84_environment",
    "C84_untouched_in_sessions_partial"
   ],
   "note": "Refuted as stated: under strict harvesting a variable named like the buffer clears it. Proved otherwise for all simulations, with or without learning and compilation; missing: visual buffers (changed by what is shown), strict harvesting together with compilation. Also proved for all sequences of run() and step(), even if the last call raises an exception."
  },
  {
   "property": "C85",
   "status": "partial",
   "theorems": [
    "C85_refuted",
    "C85_pieces_partial",
    "C85_unique",
    "C85_exception",
    "C85_idle"
   ],
   "note": "Refuted for simulations that have ended with compilation switched on: run() compiles the last two rules again at every call. Proved otherwise, for all simulations and all earlier calls."
  },
  {
   "property": "C86",
   "status": "proved",
   "theorems": [
    "C86_run"
   ],
   "note": "For all simulations and all earlier calls of run() and step()."
  },
  {
   "property": "C87",
   "status": "partial",
   "theorems": [
    "C87_refuted",
    "C87_steps_partial",
    "C87_step_partial"
   ],
   "note": "Refuted: at the end step() raises simpy's EmptySchedule, and after run() it shows an event that was shown already. Proved for stepping from the beginning or from a moment at which the last event has been shown, including that one simpy step adds at most one event."
  },
  {
   "property": "C88",
   "status": "partial",
   "theorems": [
    "C88_refuted",
    "C88_run_partial",
    "C88_step_partial"
   ],
   "note": "Refuted by a call of run. Guarded, for all sessions of run and step without environment: rules send at most one request to each buffer. Missing: environments."
  },
  {
   "property": "C89",
   "status": "partial",
   "theorems": [
    "C89_failure_partial"
   ],
   "note": "Proved for simulations without environment in which no rule sends two requests to one buffer (the hypotheses of C62's partial theorem); environments are missing."
  },
  {
   "property": "C90",
   "status": "partial",
   "theorems": [
    "C90_no_rule_partial",
    "C90_calls_partial"
   ],
   "note": "Proved for simulations without environment in which no rule makes two requests to one buffer (see C62), for runs of the simulation and for all sequences of run() and step(). Assumed: no rule has the empty name (no part of the API makes one) and a shift of attention takes at least 0.2 ms. Rules that run() compiles at its very end are left aside. Missing: environments."
  },
  {
   "property": "C91",
   "status": "proved",
   "theorems": [
    "C91_phases",
    "C91_seen_once"
   ],
   "note": "For all oracles with times that are not negative, and whatever the other processes do while the shift is suspended."
  },
  {
   "property": "C92",
   "status": "proved",
   "theorems": [
    "C92_no_later",
    "C92_look_again"
   ],
   "note": "The generators over rational times for every oracle; that a second look takes no longer is proved of EMMA without noise over the real numbers."
  },
  {
   "property": "C93",
   "status": "proved",
   "theorems": [
    "C93_symmetric",
    "C93_range",
    "C93_grows_with_distance",
    "C93_shrinks_from_afar"
   ],
   "note": "Over the real numbers."
  },
  {
   "property": "C94",
   "status": "proved",
   "theorems": [
    "C94_grows"
   ],
   "note": "Over the real numbers, without noise."
  },
  {
   "property": "C95",
   "status": "proved",
   "theorems": [
    "C95_execution",
    "C95_farther_takes_longer",
    "C95_arrival",
    "C95_noise",
    "C95_slow_eyes"
   ],
   "note": "Over the real numbers; gives the hypothesis slow_eyes of C90 for oracles that follow EMMA without noise."
  },
  {
   "property": "C96",
   "status": "proved",
   "theorems": [
    "C96_centre_of_sight",
    "C96_beyond_one_degree"
   ],
   "note": "Over the real numbers. The region is a square: C96_beyond_one_degree shows that 2 degrees cannot be replaced by 1."
  },
  {
   "property": "C97",
   "status": "partial",
   "theorems": [
    "C97_seen_partial",
    "C97_seen_refuted"
   ],
   "note": "Refuted with the default screen: heights are measured on the scale of the widths. Proved for screens with one scale."
  },
  {
   "property": "C98",
   "status": "partial",
   "theorems": [
    "C98_degrees_refuted",
    "C98_degrees_partial"
   ],
   "note": "Refuted for every position but the focus: the angle is passed in radians. The formula holds for the parameter k times 180/pi."
  },
  {
   "property": "C99",
   "status": "proved",
   "theorems": [
    "C99_run",
    "C99_event"
   ],
   "note": "For every session of run() and step() and every environment of environment.py; a rule takes at least one tick (0.0001 s)."
  }
 ]
}