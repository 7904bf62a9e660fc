{"claims": [
 {"property": "C01", "status": "proved", "theorems": ["C01_direct_simulation_exact", "C01_direct_halted_iff"], "note": "every machine table, every number of loop iterations; halting exactness both ways"},
 {"property": "C02", "status": "proved", "theorems": ["C02_direct_tape_is_array"], "note": "every sequence of tape operations"},
 {"property": "C03", "status": "proved", "theorems": ["C03_quintuple_machine", "C03_quintuple_accepts"], "note": "every quintuple list, every cell; also acceptance condition"},
 {"property": "C04", "status": "proved", "theorems": ["C04_window_simulation_exact"], "note": "simple machine, any window, any entry, any loop limit; call never raises"},
 {"property": "C05", "status": "proved", "theorems": ["C05_block_machine_exact", "C05_block_machine_layer"], "note": "spec-level theorem over a simple machine plus preservation theorem over any sound machine"},
 {"property": "C06", "status": "proved", "theorems": ["C06_backsymbol_machine_exact", "C06_backsymbol_machine_layer"], "note": "spec-level theorem over a simple machine plus preservation theorem over any sound machine"},
 {"property": "C07", "status": "partial", "theorems": ["C07_spurious_repeat_refuted", "C07_default_limits_refuted", "C07_no_spurious_repeat_partial", "C07_stack_otherwise_exact"], "note": "INF_REPEAT verdict refuted as stated (C07_spurious_repeat_refuted, 133-state witness; C07_default_limits_refuted, a machine of 137 states and 98 symbols reported as repeating with the default limits 10000 and 1000 and block size 3 although it halts after 10132 steps); proved when the block step limit covers all block configurations; everything but INF_REPEAT exact unconditionally (C07_stack_otherwise_exact)"},
 {"property": "C08", "status": "proved", "theorems": ["C08_repeat_detector_complete", "C08_repeat_detector_time", "C08_double_bound_refuted"], "note": "completeness, detection time; the factor 2 claimed in a code comment is refuted"},
 {"property": "C09", "status": "proved", "theorems": ["C09_cache_transparent", "C09_block_cache_transparent", "C09_cache_bounded"], "note": "any history, any capacity, any key type with a sound equality"},
 {"property": "C10", "status": "proved", "theorems": ["C10_single_move", "C10_chain_move", "C10_chain_is_single_moves", "C10_infinite_chain", "C10_blocks_stay_distinct", "C10_nonzeros"], "note": "every tape with positive blocks ending in blanks; both moves, infinite chain, canonicity, nonzero count"},
 {"property": "C11", "status": "proved", "theorems": ["C11_halting_exact", "C11_seek_finds_halt"], "note": "every table, every block size/offset/backsymbol setting, every driver (step, loop_seek, seek); never raises; seek finds a halt"},
 {"property": "C12", "status": "partial", "theorems": ["C12_infinite_verdicts_partial", "C12_recurring_states", "C12_abandoned_block_refuted"], "note": "chain verdict proved in every setting; repeat-in-cell verdict proved unless backsymbol sits on blocks that may be abandoned; refuted without that proviso (C12_abandoned_block_refuted)"},
 {"property": "C13", "status": "proved", "theorems": ["C13_running_snapshot", "C13_settings_agree"], "note": "snapshot incl. last-seen table; pairwise agreement of settings"},
 {"property": "C14", "status": "proved", "theorems": ["C14_expression_arithmetic", "C14_never_raises", "C14_substitute", "C14_substitute_number", "C14_variable_plus_constant", "C14_linear"], "note": "any program over the operations; ints and Fractions as rationals; formula-integer coefficients not modelled"},
 {"property": "C15", "status": "proved", "theorems": ["C15_minimum_is_lower_bound", "C15_minimum_attained", "C15_always_ge", "C15_always_gt", "C15_equal"], "note": "lower bound for any expression; attained for any expression built by the operations"},
 {"property": "C16", "status": "proved", "theorems": ["C16_rules_are_true", "C16_rules_are_true_base"], "note": "every table, every block/backsymbol setting; difference and general rules; never raises; explicit statement for the plain machine (C16_rules_are_true_base). Options at their defaults (non-recursive prover)"},
 {"property": "C17", "status": "proved", "theorems": ["C17_applying_is_running", "C17_zero_reps_refuted"], "note": "every proven rule, every tape with its stripped configuration; tape, steps, last visits, infinite verdict and recurring states; max_num_reps > 0 needed (C17_zero_reps_refuted)"},
 {"property": "C18", "status": "partial", "theorems": ["C18_halting_exact", "C18_infinite_verdicts_partial", "C18_running_snapshot", "C18_seek_finds_halt"], "note": "everything proved except the repeat-in-cell verdict with backsymbol over abandoned blocks, which is refuted in C12; 5-state champion (47,176,870 steps) proved by running the model"},
 {"property": "C19", "status": "partial", "theorems": ["C19_series_sum_partial", "C19_constant", "C19_cubic_refuted", "C19_fractions_refuted", "C19_quartic_refused"], "note": "closed form proved for terms of degree up to 2 in k with integer coefficients or symbolic count, any other variables; other cubic terms and fractional coefficients refuted; degree 4 and more refused"},
 {"property": "C20", "status": "partial", "theorems": ["C20_subtract_max_reps", "C20_subtract_apply_rep", "C20_add_apply_rep", "C20_mult_apply_rep", "C20_fixed_point_refuted", "C20_mult_compute_min", "C20_fractional_coef_refuted"], "note": "integer parameters: all proved; fixed point raises (C20_fixed_point_refuted); fractional coefficients refuted"},
 {"property": "C21", "status": "proved", "theorems": ["C21_gcd", "C21_lcm", "C21_lcm_of_zeros_refuted", "C21_int_pow", "C21_int_pow_smallest", "C21_prime_factor", "C21_prime_factor_refuses"], "note": "all integers; floating point functions as parameters; lcm(0,0) raises"},
 {"property": "C22", "status": "proved", "theorems": ["C22_exp_mod", "C22_exp_mod_refuses", "C22_carmichael_exponent"], "note": "all bases, non-negative int exponents and moduli whose prime factors are below 100; refuses all others"},
 {"property": "C23", "status": "partial", "theorems": ["C23_values", "C23_remainder_partial", "C23_floor_division_partial", "C23_remainder_refuted", "C23_negative_divisor_refuted", "C23_power_of_one_refuted"], "note": "C23_values: every number built by powers, sums, differences, products, negatives and exact quotients denotes the right integer, whatever the floating point tower values are. Remainder and floor division are right if formula exponents that are not evaluated are at least the binary logarithm of the modulus; C23_remainder_refuted shows 2^k % 8 wrong for k = 2^4000-(2^4000-1). Refuted also: division of a formula by a negative integer always fails; a power of 1 is never built. Constant formulas only (no variables in exponents); results, not absence of exceptions (different bases raise)."},
 {"property": "C24", "status": "partial", "theorems": ["C24_small_partial", "C24_small_defined", "C24_large_against_int", "C24_large_int_refuted", "C24_constant_refuted", "C24_sign_refuted"], "note": "Comparisons are right when both operands are evaluated exactly (tower height 0). For larger formulas the claim is refuted: 2^1000 > 10^400 is True, 2^4000+1 > 2^4000 is False, 2^4000-2^4001 > 0 is True; an unevaluated formula counted as positive exceeds every int (C24_large_against_int)."},
 {"property": "C25", "status": "proved", "theorems": ["C25_lin_recurrence_true", "C25_period_shortest"], "note": "The recurrence test is proved exact (not only sound); the reported period is also the shortest."},
 {"property": "C26", "status": "proved", "theorems": ["C26_halting_exact", "C26_recurrence_found", "C26_limit_one_refuted"], "note": "Completeness of Brent's search, exact halts, no exception; the limit 1 raises for every machine (C26_limit_one_refuted)."},
 {"property": "C27", "status": "proved", "theorems": ["C27_minimal_start", "C27_check_recur_exact"], "note": "No earlier start with any period; the test of the binary search is exact."},
 {"property": "C28", "status": "partial", "theorems": ["C28_lin_recur_quasihalt", "C28_simulator_quasihalt_partial", "C28_macro_repeat_refuted"], "note": "Proved for the Lin recurrence filter and for the simulator's chain and rule verdicts; false for a repeat inside a macro step (C28_macro_repeat_refuted)."},
 {"property": "C29", "status": "proved", "theorems": ["C29_ctl1_sound", "C29_ctl_answers"], "note": "CTL1 sound on base, block and backsymbol machines; the test always ends with an answer, without exception (C29_ctl_answers, all four tests, with an explicit bound)"},
 {"property": "C30", "status": "proved", "theorems": ["C30_ctl2_sound"], "note": "CTL2 sound on base, block and backsymbol machines; the test always ends with an answer, without exception (C29_ctl_answers, all four tests, with an explicit bound)"},
 {"property": "C31", "status": "proved", "theorems": ["C31_ctl3_sound"], "note": "CTL3 sound on base, block and backsymbol machines; the test always ends with an answer, without exception (C29_ctl_answers, all four tests, with an explicit bound)"},
 {"property": "C32", "status": "partial", "theorems": ["C32_ctl4_refuted", "C32_ctl4_sound_partial"], "note": "CTL4 is refuted as written (index -2 where 1 is meant; machine that halts is reported infinite); sound whenever the tape at the cutoff is one where the index does no harm"},
 {"property": "C33", "status": "proved", "theorems": ["C33_cps_sound", "C33_cps_answers", "C33_cps_filter_all_sound", "C33_one_block_window_refuted"], "note": "Any iteration order, any limits; the filter always answers (no exception, no loop); window of at least two blocks is needed (C33_one_block_window_refuted), which CPS_Filter always gives"},
 {"property": "C34", "status": "partial", "theorems": ["C34_backtrack_sound_partial", "C34_first_step_refuted", "C34_backtrack_answers"], "note": "Proved for every machine whose first cell (state A, symbol 0) is not a halting cell, all depth and width limits, including the None result for machines without halting cells; refuted when that first cell halts (C34_first_step_refuted). The search always answers when at least one step is allowed."},
 {"property": "C35", "status": "proved", "theorems": ["C35_reverse_engineer_sound", "C35_unreachable_cell", "C35_reverse_engineer_answers"], "note": "The filter is sound, each cell it calls unreachable is never read, and it always answers"},
 {"property": "C36", "status": "partial", "theorems": ["C36_every_machine_is_std", "C36_text_round_trip", "C36_text_meaning", "C36_text_accepted", "C36_malformed_rejected_refuted"], "note": "Round trip proved for all tables the readers can build; the meaning of every accepted text and the exact set of accepted texts are proved; the claim that text naming no machine is rejected is refuted (C36_malformed_rejected_refuted)"},
 {"property": "C37", "status": "proved", "theorems": ["C37_packed_round_trip"], "note": ""},
 {"property": "C38", "status": "partial", "theorems": ["C38_stored_record_partial", "C38_symbol_7_fails", "C38_symbol_7_refuted", "C38_list_form_exact", "C38_list_form_refuted", "C38_list_keeps_table"], "note": "Proved up to 7 states and 8 symbols when symbol 7 is not written; refuted otherwise: writing symbol 7 raises (C38_symbol_7_refuted), and above these sizes the list form is read back with every cell equal to A0 (C38_list_form_exact, C38_list_form_refuted) although the stored list keeps the table"},
 {"property": "C39", "status": "proved", "theorems": ["C39_read_all", "C39_cut", "C39_load", "C39_load_cut", "C39_write_total"], "note": "Records are the serialized byte strings; protobuf itself and gzip are not modelled"},
 {"property": "C40", "status": "proved", "theorems": ["C40_big_int_round_trip"], "note": "Python ints; pickled ExpInt values are not modelled"},
 {"property": "C41", "status": "proved", "theorems": ["C41_entry", "C41_load", "C41_end", "C41_skip_result_refuted", "C41_skip_never_true"], "note": "Also: exactly which entries are accepted, behaviour at the end of the file; skip_record's documented result is refuted (C41_skip_result_refuted)"},
 {"property": "C42", "status": "proved", "theorems": ["C42_children_exact"], "note": "The list of children is exactly the allowed one-cell fillings, each once"},
 {"property": "C43", "status": "proved", "theorems": ["C43_no_machine_missed", "C43_no_machine_missed_1rb", "C43_follows", "C43_no_machine_twice"], "note": "For all machines over the given numbers of states and symbols; the 1RB root covers those whose first transition writes a non-blank and leaves the first state"},
 {"property": "C44", "status": "proved", "theorems": ["C44_ends", "C44_all_once", "C44_ends_iff", "C44_limit", "C44_tree"], "note": "Simulation verdict is a parameter: any verdict that is right about halting in an undefined cell; the random shuffle is any permutation"},
 {"property": "C45", "status": "partial", "theorems": ["C45_nothing_lost_or_duplicated", "C45_stops_when_done_partial", "C45_no_deadlock_partial", "C45_master_crash_refuted", "C45_worker_crash_refuted", "C45_delayed_push_refuted"], "note": "Nothing lost or duplicated: proved for every schedule and delay. Stopping only when done and absence of deadlock: proved when one worker's messages become visible in order and no exception is raised. Refuted: the slice bound is a float (master and worker crash), and a request seen before an earlier push stops everybody with jobs left"},
 {"property": "C46", "status": "proved", "theorems": ["C46_renamed_run", "C46_score_refuted", "C46_start_states"], "note": "Same steps, corresponding configurations, halting in the corresponding cell, for every machine the readers build; the generator of other start states likewise. The final score is not preserved, because permute_table writes every halting transition as 1RZ (C46_score_refuted)"},
 {"property": "C47", "status": "partial", "theorems": ["C47_first_visit_order", "C47_in_tree_partial", "C47_three_symbols_refuted"], "note": "States in order of first visit, symbols in order of first reading, first move right; in the tree proved for two symbols or when symbols are also first written in order; refuted for three symbols (C47_three_symbols_refuted)"},
 {"property": "C48", "status": "partial", "theorems": ["C48_same_machine", "C48_canonical_partial", "C48_mirror_refuted", "C48_symbols_refuted"], "note": "The result is always the given machine renamed. Canonical proved when every state runs on the blank, the blank keeps its name, halting cells are 1RZ and the machine is printable; refuted for mirror images and for exchanged symbols"},
 {"property": "C49", "status": "proved", "theorems": ["C49_adjacent_exact"], "note": "For every machine the readers build"},
 {"property": "C50", "status": "proved", "theorems": ["C50_backtrack_halted_exact"], "note": ""},
 {"property": "C51", "status": "partial", "theorems": ["C51_text_file", "C51_text_file_written", "C51_large_machine_refuted", "C51_symbol_7", "C51_symbol_7_refuted", "C51_large_machine_is_blank"], "note": "Proved for machines below 25 states and 10 symbols; refuted for larger ones, which are written as an empty line at which the reader stops (C51_large_machine_refuted), and for machines of at most 7 states and 8 symbols that write the last symbol: they are printed but reading the line raises, and C51_symbol_7 says that these are the only ones (C51_symbol_7_refuted)"},
 {"property": "C52", "status": "partial", "theorems": ["C52_infinite_verdict_refuted", "C52_step_count_refuted", "C52_halting_exact_partial", "C52_infinite_verdicts_partial", "C52_running_snapshot_partial"], "note": "Proved for every run whose recorded rules are trusted (C52_halting_exact_partial, C52_infinite_verdicts_partial, C52_running_snapshot_partial): all rules proven without other rules, and rules proven with other rules that are Diff_Rules whose step polynomial is integer of degree at most 2. Refuted otherwise: C52_infinite_verdict_refuted gives a machine that halts after 45525 steps and is reported infinite, because the minimum of a general rule proven with other rules (line 874) ignores what those rules need. C52_step_count_refuted: applying such a rule can take back a step. Not shown: that a run never raises."},
 {"property": "C53", "status": "proved", "theorems": ["C53_count_exact", "C53_root", "C53_children_add_up", "C53_total", "C53_total_limit"], "note": "count of every listed table is the exact number of machines it stands for (explicit duplicate-free list); root formula; children add up; totals over finished and limited enumerations. Also proves that the enumeration tree is finite (C44_ends)."},
 {"property": "C54", "status": "partial", "theorems": ["C54_limited_rule_is_true", "C54_halting_exact", "C54_infinite_verdicts_partial", "C54_running_snapshot", "C54_seek_finds_halt"], "note": "Everything proved except that, as in C12 and C18, a repeat found inside one macro cell is only trusted up to the limits of that detector (refuted in C12): C54_infinite_verdicts_partial. C54_limited_rule_is_true: a limited rule is true on every tape with near blocks that look alike. The order of trying rules is arbitrary."},
 {"property": "C55", "status": "partial", "theorems": ["C55_status_true_partial", "C55_answers", "C55_abandoned_block_refuted", "C55_recursive_refuted", "C55_quasihalt_refuted", "C55_lin_one_refuted", "C55_no_prover_refuted"], "note": "C55_status_true_partial: every halting status is exact (steps, score, cell), every infinite status true, whatever block size the finder takes, in whatever order. Missing: the status after a repeat inside a macro step when a block may be abandoned, its quasihalting status, and --recursive with untrusted rules; all three are refuted (C55_abandoned_block_refuted, C55_quasihalt_refuted, C55_recursive_refuted). C55_answers: with the default or limited prover, --lin-steps other than 1 and positive limits, every run ends with a status, no exception and no endless loop; --lin-steps=1 and --no-prover raise for every machine (C55_lin_one_refuted, C55_no_prover_refuted). The comparison of floating point ratios in the block finder is arbitrary. bb5_halts: the modelled pipeline computes all 47176870 steps of the fifth busy beaver."},
 {"property": "C56", "status": "partial", "theorems": ["C56_records_true_partial", "C56_no_machine_twice", "C56_ends", "C56_no_machine_missed_partial", "C56_settled", "C56_reached", "C56_champions", "C56_busy_beaver_2_2", "C56_busy_beaver_2_3", "C56_busy_beaver_3_2", "C56_eight_states_refuted"], "note": "C56_records_true_partial, C56_no_machine_twice, C56_ends, C56_no_machine_missed_partial, C56_settled and C56_champions: for up to 7 states and symbols, every queue order, shuffle, limit and timer; the settings must be such that no block is abandoned and, with --recursive, no untrusted rule is recorded (both refuted otherwise in C55). C56_busy_beaver_2_2 (defaults), C56_busy_beaver_2_3 and C56_busy_beaver_3_2 (--block-size=2): the modelled program run to its end inside the kernel settles these classes, with no assumption left. Missing: larger classes, for which the program itself fails (C56_eight_states_refuted: with 8 states at the seventh machine). Starting from --infile: C64."},
 {"property": "C57", "status": "partial", "theorems": ["C57_applied", "C57_infinite", "C57_below", "C57_exception", "C57_fixed_point_refuted", "C57_same_tape", "C57_pow_min", "C57_pow_loop_refuted"], "note": "C57_applied, C57_infinite, C57_below, C57_same_tape: all rules made by Linear_Rule.try_gen with integer coefficients and minima that are not negative, all counts; the values of formula integers stand for the formulas (C23). C57_exception: an exception is raised only when some count is the fixed point of its function, and then it is (C57_fixed_point_refuted), although the other code path answers. C57_pow_min: exact logarithms instead of floating point; C57_pow_loop_refuted: if the minimum is a fixed point, as for x -> 2^(x-1) from 1, the loop never ends. Whether a rule is true of the machine is C16/C52. Missing: counts that are expressions, that is rules applied in closed form inside the proof of another rule (--exp-meta-linear-rules), and the simulation without step counts."},
 {"property": "C58", "status": "partial", "theorems": ["C58_round_trip", "C58_numbers", "C58_identical", "C58_noise_lines", "C58_halt_any_case", "C58_unread_symbol_refuted", "C58_empty_state_refuted", "C58_start_state_refuted", "C58_two_records_refuted", "C58_record", "C58_symbol_7_refuted"], "note": "C58_round_trip (any names), C58_numbers, C58_identical: files as character lists, all machines. The reader succeeds exactly if every state entered has a transition and every symbol written is read somewhere; with a transition in the start state the machine is then the same. Missing, because false: machines that are not so, such as many in tree normal form, raise ValueError (C58_unread_symbol_refuted, C58_empty_state_refuted); a start state without transitions is replaced by another (C58_start_state_refuted); several records in a file merge into one machine (C58_two_records_refuted); C58_record: the record made of the machine fails exactly for 8 symbols with at most 7 states when the last symbol is written (C58_symbol_7_refuted). C58_noise_lines, C58_halt_any_case: comments, blank lines, breakpoint marks and capitals in files written by people. Directions other than l and r (the reader stores -1) and compressed files are not modelled."},
 {"property": "C59", "status": "partial", "theorems": ["C59_outcomes", "C59_total", "C59_uniform", "C59_each", "C59_sets", "C59_few", "C59_count_refuted", "C59_truncated_refuted"], "note": "Proved for complete files and files cut inside a record's length: the outcomes' probabilities add up to 1, each outcome has min(k,N) different records of the files, every set of j <= k records is contained with probability falling(k,j)/falling(N,j), so every k-set is equally likely; the order after shuffling is any permutation. Refuted: the printed number of records is always one too many; a file cut inside a record biases the sample when the cut record is skipped by skip_record (7/12 against 5/12 in the example). random.random() < k/num is taken as an exact probability, randrange as uniform."},
 {"property": "C60", "status": "partial", "theorems": ["C60_records_stay_true", "C60_decisions_kept", "C60_cps_forgets_refuted", "C60_offset_refuted", "C60_ctl4_refuted", "C60_tools_end", "C60_quasihalt_forgotten_refuted"], "note": "C60_records_stay_true for all lists of tools with CTL1-3, CPS (smallest block size >= 1) and reverse engineering; C60_decisions_kept without CPS_Filter; C60_tools_end for valid options (offset 0 or --all-offsets). Refuted: CTL4 turns a halting machine into an infinite one; CPS_Filter deletes decisions (clear_proto before filtering); CTL and reverse engineering filters reset a decided quasihalt status; --offset k with block sizes 2..k stops at an assertion with the rest of the file unwritten. Backtracking_Filter is not included (its record function calls IO.parse_ttable, which does not exist)."},
 {"property": "C61", "status": "partial", "theorems": ["C61_categorize_partition", "C61_categories_true", "C61_infinite_quasihalts_refuted", "C61_sort", "C61_count", "C61_count_cut", "C61_count_refuted", "C61_zero_reflexive"], "note": "Partition, order, counters, truth of the file names, sorting, counting of complete and of cut files, zero reflexive split proved. Refuted: the file 'infinite' gets machines that quasihalt (when only halting is decided); IO_Count counts a record cut behind its length field. Records are lists, list.sort is modelled by stable insertion; steps and scores are integers."},
 {"property": "C62", "status": "partial", "theorems": ["C62_same_run", "C62_verdicts_true", "C62_seek_ends", "C62_status", "C62_recorded_steps_refuted", "C62_seek_refuted"], "note": "C62_same_run for step and loop_seek (lockstep of the two simulators; no hypothesis on the machine), C62_verdicts_true, C62_status. Missing, because false: a record gets the number of steps 0 (C62_recorded_steps_refuted: for every machine called halting, the stored number is not the number of steps), and seek ignores its limit (C62_seek_ends, C62_seek_refuted). Limited and recursive rules without counting are not modelled; with --exp-linear-rules but without --recursive no linear rule is ever proven, so that is the same run."},
 {"property": "C63", "status": "proved", "theorems": ["C63_counter_irrelevant", "C63_limited", "C63_recursive", "C63_status"], "note": "C63_counter_irrelevant (plain prover, whole report, no hypothesis), C63_recursive, C63_limited (the iteration order of sets must be natural, i.e. not depend on the numbers of variables: natural_order), C63_status (status of Macro_Simulator.run_options for every prover). Renaming the variables of expressions by a monotone map commutes with every operation of the prover. The quasihalting status and the steps of unfinished runs are compared too."},
 {"property": "C64", "status": "partial", "theorems": ["C64_records_true_partial", "C64_no_machine_twice", "C64_no_machine_missed_partial", "C64_settled", "C64_continues", "C64_same_records", "C64_whole_file_refuted", "C64_allow_no_halt_refuted"], "note": "C64_records_true_partial, C64_no_machine_twice, C64_no_machine_missed_partial, C64_settled, C64_continues and C64_same_records: for every sequence of runs that take up undecided records, up to 7 states and symbols, under the conditions on the settings of C56. The claim as the help text has it fails twice: C64_whole_file_refuted (given the file of a run as it is, the next run expands the halting machines again, 221 records for a class of 61) and C64_allow_no_halt_refuted (the option is not stored in the records, so machines are lost)."},
 {"property": "C65", "status": "partial", "theorems": ["C65_answer_true_partial", "C65_loops", "C65_answers", "C65_finds_halt", "C65_fuel", "C65_same_answer", "C65_max_loops_refuted", "C65_freeze_refuted", "C65_print_loops_refuted", "C65_abandoned_block_refuted"], "note": "C65_answer_true_partial, C65_loops, C65_answers, C65_finds_halt, C65_fuel and C65_same_answer, for every prover and every way of printing. The rest fails: C65_max_loops_refuted (--max-loops=5 --print-loops=3 makes 6 loops), C65_freeze_refuted (--freeze-prover with --no-prover always raises), C65_print_loops_refuted (--print-loops=0 never ends), C65_abandoned_block_refuted (a machine that halts is printed as proven infinite with a small --max-steps-in-block; C07), and untrusted recursive rules (C52). --start-state other than A, --manual and --latex are not modelled."},
 {"property": "C66", "status": "partial", "theorems": ["C66_filter_step", "C66_filter_ends", "C66_settles", "C66_same_halting", "C66_whole_file_refuted"], "note": "C66_filter_step, C66_filter_ends, C66_settles and C66_same_halting; the campaigns of C64 contain filter steps, so its theorems on truth, duplicates and missed machines cover them. The restriction to undecided records is needed: C66_whole_file_refuted (CPS_Filter on a finished file forgets halting records; going on stores machines twice). CTL4 is left out because it is unsound (C32)."},
 {"property": "C67", "status": "partial", "theorems": ["C67_literal_exact", "C67_literal", "C67_plain", "C67_record", "C67_text_file", "C67_record_file", "C67_find", "C67_find_text", "C67_io_find", "C67_negative", "C67_more_parts", "C67_gz_text_refuted", "C67_colon_name_refuted", "C67_literal_name_refuted", "C67_negative_refuted", "C67_blank_line_refuted", "C67_find_large_refuted", "C67_io_find_text_refuted", "C67_format", "C67_line_ends"], "note": "C67_literal_exact, C67_literal, C67_plain, C67_record, C67_text_file, C67_record_file, C67_find (text files: C67_find_text), C67_io_find. Missing, because false: negative numbers are taken for 0 (C67_negative, C67_negative_refuted) and a second colon with what follows is ignored (C67_more_parts); files whose names have a colon or look like a machine cannot be named (C67_colon_name_refuted, C67_literal_name_refuted); compressed text files cannot be read (C67_gz_text_refuted); behind a blank line file:number finds records that Find_Record does not see, and counts the blank line (C67_blank_line_refuted); machines of more than 7 states are never found (C67_find_large_refuted); IO_Find misses other texts of the same machine (C67_io_find_text_refuted)."},
 {"property": "C68", "status": "partial", "theorems": ["C68_same_record", "C68_again", "C68_status_true_partial", "C68_verdict_erased_refuted", "C68_true_to_false_refuted", "C68_steps_lost_refuted"], "note": "C68_same_record, C68_again, C68_status_true_partial (needs trusted rules as in C52 and no linear rule). Missing, because false: a record decided by a filter and never simulated loses its verdict (C68_verdict_erased_refuted); a true halting record can become infinite because Re_Sim always uses recursive rules (C68_true_to_false_refuted); when a linear rule was proven the number of steps is dropped (C68_steps_lost_refuted). The second simulation with linear rules is an arbitrary function in the model."},
 {"property": "C69", "status": "proved", "theorems": ["C69_lazy_beaver", "C69_printed", "C69_files", "C69_nonhalt_complete", "C69_one_state_refuted", "C69_one_symbol_refuted"], "note": "C69_lazy_beaver, C69_printed, C69_files, C69_nonhalt_complete. The condition on the size is needed: with one state (or one symbol and more than two states) the program reads outside its table as soon as two steps are allowed (C69_one_state_refuted, C69_one_symbol_refuted)."},
 {"property": "C70", "status": "proved", "theorems": ["C70_halting_exact", "C70_recurrence_true", "C70_recurrence_found", "C70_limit_one_refuted"], "note": "C70_halting_exact, C70_recurrence_true, C70_recurrence_found. The condition on the limit is needed: with 0 or 1 nothing is simulated, so a machine that halts at once is left undecided (C70_limit_one_refuted)."},
 {"property": "C71", "status": "proved", "theorems": ["C71_ends", "C71_files", "C71_no_machine_missed", "C71_settles", "C71_one_state_refuted"], "note": "C71_ends, C71_files, C71_no_machine_missed, C71_settles. The condition on the size is needed: with one state the program reads outside its table (C71_one_state_refuted). Halting early enough means within the power of two that is at least max_steps."},
 {"property": "C72", "status": "partial", "theorems": ["C72_round_trip", "C72_python_reads", "C72_reads_python", "C72_large_refuted", "C72_lines_refuted"], "note": "C72_round_trip, C72_python_reads, C72_reads_python. Missing, because false: the last sentence. Blank lines are undefined behaviour, a carriage return ends the program, and a halting state with another letter than Z, which Python accepts, makes the simulator read outside of its table (C72_lines_refuted). Larger machines end the program when they are written (C72_large_refuted)."},
 {"property": "C73", "status": "proved", "theorems": ["C73_lr_parallel", "C73_split", "C73_holes", "C73_lazy_beaver", "C73_lb_parallel"], "note": "C73_lr_parallel, C73_split (any permutation stands for the shuffle), C73_lb_parallel, C73_holes, C73_lazy_beaver. only_unknown is off in C73_lr_parallel. The lines of the files of steps are taken as pairs of a number and a text."},
 {"property": "C74", "status": "partial", "theorems": ["C74_direct_all", "C74_again", "C74_direct_sim", "C74_lin_recur", "C74_no_line_refuted", "C74_log_zero_refuted"], "note": "C74_direct_all, C74_again, C74_direct_sim, C74_lin_recur. Missing, because false: the last sentence. A line number behind the end of the file is a null pointer (C74_no_line_refuted), and log2(max_steps) = 0 prints a number that is not initialized (C74_log_zero_refuted)."},
 {"property": "C75", "status": "partial", "theorems": ["C75_rules", "C75_reaches", "C75_halts", "C75_admit_refuted"], "note": "C75_rules, C75_reaches, C75_halts for proofs without Admit. Missing, because false: the last sentence. A proof with Admit is accepted for any rule (C75_admit_refuted). Recursive expressions (RecursiveExpr) are left out here; C76 is about them. Integers do not overflow."},
 {"property": "C76", "status": "partial", "theorems": ["C76_normalize", "C76_equal", "C76_sub", "C76_subst", "C76_capture_refuted", "C76_equal_refuted"], "note": "C76_subst, under the condition that no variable is captured; C76_normalize, C76_equal and C76_sub for expressions whose bound variables all have one name. Missing, because false: the last sentence. A bound variable captures a substituted one (C76_capture_refuted), and known_equal renames a bound variable to one that is free in the other function, so that (x -> 2x)^z(1) and (y -> x + y)^z(1) are taken for equal and their difference for zero (C76_equal_refuted)."}
]}
