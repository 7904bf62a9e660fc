{"id": "C01", "title": "Direct simulation is exact", "statement": "Running the direct simulator from blank tape for k steps gives exactly the configuration of the mathematical Turing machine after min(k, halting time) transitions: same state, same symbol at every integer tape position, same head position, same step count, halted flag set iff the machine took its halting transition, and count of nonzero cells equal to the machine's score.", "quantifier": "every transition table, every number of steps k", "why_tests_cant": "A test runs finitely many machines for finitely many steps; the growable tape representation must be right for every visiting pattern.", "anchors": ["Code/Direct_Simulator.py: DirectSimulator.step, seek, is_halted, DirectTape"]}
{"id": "C02", "title": "Direct tape is an unbounded array", "statement": "Any sequence of write / move / absolute write operations on the direct tape followed by reads returns what an unbounded array indexed by integers would return, and the reported leftmost/rightmost written range always contains the head and every position ever visited.", "quantifier": "every operation sequence, every position", "why_tests_cant": "Index arithmetic with on-the-fly growth on either side has unboundedly many interleavings.", "anchors": ["Code/Direct_Simulator.py: DirectTape.read, write, move, read_pos, write_pos, _expand_tape, in_range, count_nonzero"]}
{"id": "C03", "title": "Machine built from a quintuple list means that list", "statement": "A machine built from a list of (state, symbol, symbol out, direction, state out) rows answers every lookup with the last row given for that cell, answers cells without a row as undefined (write 1, right, halt), treats a halting row as halting, and reports number of base steps 1 for each.", "quantifier": "every quintuple list, every cell", "why_tests_cant": "Tables are arbitrary data.", "anchors": ["Code/Macro/Turing_Machine.py: tm_from_quintuples, Simple_Machine, Simple_Machine.get_trans_object"]}
{"id": "C04", "title": "Bounded-window simulation is exact", "statement": "Simulating a machine on a finite window reports leaving the window only with the exact state, side, tape contents and base-step count with which the underlying machine leaves it; reports halting only with the exact halting step count and contents; reports an infinite repeat only if the underlying machine stays in the window forever and never halts.", "quantifier": "every machine, window contents, entry position and loop limit", "why_tests_cant": "Loops of any length can precede a repeat; the repeat detector only samples configurations.", "anchors": ["Code/Macro/Turing_Machine.py: sim_limited"]}
{"id": "C05", "title": "Block macro machine simulates the base machine", "statement": "One transition of a k-block macro machine, from any tape, equals running the base machine from the expanded tape until it leaves the block, halts or provably loops; the reported number of base steps is the exact number of base steps.", "quantifier": "every base machine, block size, offset, block contents, tape, direction", "why_tests_cant": "Block size, tape and machine are unbounded.", "anchors": ["Code/Macro/Turing_Machine.py: Block_Macro_Machine.eval_trans, get_trans_object"]}
{"id": "C06", "title": "Backsymbol macro machine simulates the base machine", "statement": "One transition of the backsymbol macro machine equals running the base machine on the two-cell window made of the remembered symbol and the current one; step count, leftover symbols, side and halting are exact.", "quantifier": "every base machine, remembered symbol, tape, direction", "why_tests_cant": "Machine and tape are unbounded.", "anchors": ["Code/Macro/Turing_Machine.py: Backsymbol_Macro_Machine.eval_trans"]}
{"id": "C07", "title": "Stacked macro machines never invent an infinite verdict", "statement": "A backsymbol machine stacked on a block machine reports an infinite repeat only if the base machine really never halts, even when simulating a block was abandoned at its step limit.", "quantifier": "every base machine and every setting of the step limits", "why_tests_cant": "Needs a machine that gives up inside a block exactly when the outer state coincides with a saved one; tests never hit that.", "anchors": ["Code/Macro/Turing_Machine.py: sim_limited (order of repeat test and condition test), Backsymbol_Macro_Machine, Block_Macro_Machine"]}
{"id": "C08", "title": "Repeat detector finds every repeat in time", "statement": "If the simulated window configuration eventually repeats, the window simulation reports the repeat (given a large enough loop limit) no later than three times the larger of the pre-period and period (at least 128); and with a limit above the number of possible window configurations it never gives up.", "quantifier": "every machine and window", "why_tests_cant": "Pre-period and period are unbounded.", "anchors": ["Code/Macro/Turing_Machine.py: sim_limited (old_config, next_config_save)"]}
{"id": "C09", "title": "Macro transition cache is transparent", "statement": "Whatever sequence of macro transitions was requested before, and however often the cache overflowed and was cleared, asking for a macro transition returns the same answer as evaluating it afresh.", "quantifier": "every call history, every cache capacity", "why_tests_cant": "Depends on the whole history of requests.", "anchors": ["Code/Macro/Turing_Machine.py: Macro_Machine.get_trans_object, Block_Macro_Machine, Backsymbol_Macro_Machine"]}
{"id": "C10", "title": "Run-length tape moves are exact", "statement": "Single moves and chain moves on the run-length encoded tape have exactly the effect on the denoted bi-infinite tape of the one, respectively num-repetition many, single-symbol moves they stand for; no block of length zero is ever created; a chain move over the infinite block is reported and changes nothing.", "quantifier": "every tape, symbol, direction", "why_tests_cant": "Block lengths and counts are unbounded.", "anchors": ["Code/Macro/Tape.py: Chain_Tape.apply_single_move, apply_chain_move, get_top_symbol, get_nonzeros"]}
{"id": "C11", "title": "Accelerated simulator reports halting exactly", "statement": "If the accelerated simulator (any block size, with or without backsymbol) reports that the machine halted, then the machine started on the blank tape halts after exactly the reported number of steps with exactly the reported number of nonzero symbols, leaving from the reported state and symbol.", "quantifier": "every machine, every block size, every run length", "why_tests_cant": "Any finite test set misses machines and macro layouts.", "anchors": ["Code/Macro/Simulator.py: Simulator.step, seek, loop_seek, get_nonzeros", "Code/Macro/Turing_Machine.py", "Code/Macro/Tape.py"]}
{"id": "C12", "title": "Accelerated simulator's infinite verdicts are true", "statement": "If the accelerated simulator without rule prover reports that the machine runs forever (repeat inside a macro cell, or endless chain over blank tape), the machine never halts.", "quantifier": "every machine, block size, run length", "why_tests_cant": "Non-halting is not observable by running.", "anchors": ["Code/Macro/Simulator.py: Simulator.step", "Code/Macro/Tape.py: apply_chain_move"]}
{"id": "C13", "title": "Running accelerated simulator is a true snapshot", "statement": "While the accelerated simulator is still running, the reported step count and nonzero count are exactly those of the machine after that many steps, for every choice of block size; hence two simulations with different macro settings that decide never disagree.", "quantifier": "every machine and macro setting, every number of loops", "why_tests_cant": "Compares two unbounded runs.", "anchors": ["Code/Macro/Simulator.py: Simulator.step", "Code/Macro_Simulator.py: simulate_machine"]}
{"id": "C14", "title": "Symbolic expressions compute polynomial arithmetic", "statement": "Sum, difference, product, power, scalar quotient and substitution on symbolic expressions evaluate, under every assignment of the variables, to the sum, difference, product, power, quotient and substituted value of the evaluations.", "quantifier": "every expression and assignment", "why_tests_cant": "Polynomials of any size.", "anchors": ["Code/Algebraic_Expression.py: Expression.__add__, __sub__, __mul__, __pow__, __truediv__, substitute, term_sum, expr_prod, vars_prod"]}
{"id": "C15", "title": "Symbolic minimum and comparison are sound", "statement": "The reported minimum of an expression is a lower bound of its value for all non-negative assignments and is attained whenever finite; 'always greater or equal' and 'always greater' answers are true for all non-negative assignments; two expressions reported equal are equal under all assignments.", "quantifier": "every expression and assignment", "why_tests_cant": "Universally quantified over assignments.", "anchors": ["Code/Algebraic_Expression.py: Expression.min_val, __eq__, always_ge, always_gt, min_val"]}
{"id": "C16", "title": "Proven tape rules are true for all exponents", "statement": "Whenever the rule prover accepts a (non-recursive) rule, then for all values of its variables the machine started in the generalised initial configuration reaches the generalised final configuration in the stated number of steps without halting.", "quantifier": "every machine, every starting configuration, every variable value", "why_tests_cant": "A rule stands for infinitely many configurations.", "anchors": ["Code/Macro/Proof_System.py: Proof_System.prove_rule, strip_config"]}
{"id": "C17", "title": "Applying a rule is the same as running the machine", "statement": "Applying a proven difference rule to a matching tape yields a tape, a step count and a repetition count equal to what the machine itself reaches, and an 'infinite' answer is given only if the machine never halts.", "quantifier": "every rule, every matching tape", "why_tests_cant": "Repetition counts are unbounded.", "anchors": ["Code/Macro/Proof_System.py: apply_diff_rule, Proof_System.log_and_apply"]}
{"id": "C18", "title": "Accelerated simulator with rule prover is exact", "statement": "With the (non-recursive) rule prover switched on, halting verdicts, step counts, nonzero counts and infinite verdicts are still those of the machine itself.", "quantifier": "every machine, block size, run length", "why_tests_cant": "Combines symbolic induction with simulation; unbounded.", "anchors": ["Code/Macro/Simulator.py: Simulator.step", "Code/Macro/Proof_System.py"]}
{"id": "C19", "title": "Closed form step sums are correct", "statement": "The closed form for the total number of steps of N repetitions of a rule equals the sum of the per-repetition step counts for every polynomial step count, including cubic terms and fractional coefficients.", "quantifier": "every polynomial and every N", "why_tests_cant": "Infinitely many polynomials.", "anchors": ["Code/Macro/Proof_System.py: series_sum, factor_var"]}
{"id": "C20", "title": "Linear rule functions iterate correctly", "statement": "For a rule changing an exponent by x -> x - c, x -> x + c or x -> m x + c, the computed maximal number of repetitions, value after n repetitions and minimal safe start value agree with iterating the function.", "quantifier": "all m, c, start values and repetition counts", "why_tests_cant": "Infinitely many parameters.", "anchors": ["Code/Macro/Rule_Func.py: Subtract_Func, Add_Func, Mult_Func, ceil_div"]}
{"id": "C21", "title": "Integer helper functions are correct", "statement": "gcd and lcm return the greatest common divisor and least common multiple; the perfect-power decomposition returns (m,k) with m^k = n; prime factorisation returns the prime factorisation or refuses.", "quantifier": "all integers", "why_tests_cant": "Infinitely many integers.", "anchors": ["Code/Math.py: gcd, lcm, int_pow, prime_factor"]}
{"id": "C22", "title": "Modular exponentiation with huge exponents is correct", "statement": "exp_mod(b, k, m) equals b^k mod m for every base, exponent and modulus it accepts, i.e. replacing the exponent by its reduction modulo Carmichael's function beyond the maximal prime multiplicity never changes the residue.", "quantifier": "all b, k >= 0, m > 0 with prime factors below 100", "why_tests_cant": "Infinitely many values; number-theoretic argument.", "anchors": ["Code/Math.py: carmichael, exp_mod, prime_factor"]}
{"id": "C23", "title": "Formula integers compute integer arithmetic", "statement": "Sum, negation, product, exact quotient and remainder of exponential-formula integers have the value of the corresponding integer operation on the values they denote.", "quantifier": "all formula integers", "why_tests_cant": "Unbounded nesting and size.", "anchors": ["Code/Exp_Int.py: ExpTerm, ExpInt.__add__, __mul__, __truediv__, __mod__, normalize_terms"]}
{"id": "C24", "title": "Formula integer comparison is correct", "statement": "Comparing two exponential-formula integers agrees with comparing the integers they denote.", "quantifier": "all pairs of formula integers", "why_tests_cant": "Differences hidden below floating point precision are never sampled.", "anchors": ["Code/Exp_Int.py: ExpInt.__lt__, __gt__, tower_value"]}
{"id": "C25", "title": "Lin-recurrence verdict is true", "statement": "If the Lin recurrence filter reports success with start step s, period p and offset o, then the machine never halts and from step s on its state repeats with period p while its head position shifts by o each period.", "quantifier": "every machine and step limit", "why_tests_cant": "Non-halting and endless periodicity are not observable.", "anchors": ["Code/Lin_Recur_Detect.py: lin_detect_not_min, check_recur, are_half_tapes_equal, are_sections_equal"]}
{"id": "C26", "title": "Lin-recurrence filter finds every Lin-recurrent machine", "statement": "If the machine is in translated-cycle recurrence from some step on, the filter with no or a sufficiently large step limit reports success; if the machine halts within the limit the filter reports halting with the exact step count.", "quantifier": "every machine", "why_tests_cant": "Start step and period unbounded.", "anchors": ["Code/Lin_Recur_Detect.py: lin_detect_not_min"]}
{"id": "C27", "title": "Reported minimal recurrence start is minimal", "statement": "With minimal start requested, the reported start step is the least step from which the recurrence with the reported period holds.", "quantifier": "every machine", "why_tests_cant": "Binary search is only right if the tested predicate is monotone for every machine.", "anchors": ["Code/Lin_Recur_Detect.py: period_search, check_recur, filter"]}
{"id": "C28", "title": "Quasihalting verdict is true", "statement": "When a filter reports a machine quasihalting in a state at a step, that state is never entered again from that step on, was entered at the step before, and every state entered later is entered infinitely often; when it reports not quasihalting every visited state recurs forever.", "quantifier": "every machine", "why_tests_cant": "Statement about infinite runs.", "anchors": ["Code/Halting_Lib.py: set_inf_recur", "Code/Lin_Recur_Detect.py: lin_detect_not_min", "Code/Macro_Simulator.py: simulate_machine"]}
{"id": "C29", "title": "CTL A* filter is sound", "statement": "If the CTL1 filter reports success for any block size, offset, cutoff and backsymbol setting, the machine never halts.", "quantifier": "every machine and filter setting", "why_tests_cant": "Non-halting.", "anchors": ["Code/CTL1.py: CTL, test_CTL"]}
{"id": "C30", "title": "CTL A*B filter is sound", "statement": "If the CTL2 filter reports success, the machine never halts.", "quantifier": "every machine and filter setting", "why_tests_cant": "Non-halting.", "anchors": ["Code/CTL2.py: CTL, test_CTL"]}
{"id": "C31", "title": "CTL AB* filter is sound", "statement": "If the CTL3 filter reports success, the machine never halts.", "quantifier": "every machine and filter setting", "why_tests_cant": "Non-halting.", "anchors": ["Code/CTL3.py: CTL, test_CTL"]}
{"id": "C32", "title": "CTL A*BC filter is sound", "statement": "If the CTL4 filter reports success, the machine never halts.", "quantifier": "every machine and filter setting", "why_tests_cant": "Non-halting; the initial language is built from arbitrary run-length tapes.", "anchors": ["Code/CTL4.py: CTL, test_CTL"]}
{"id": "C33", "title": "Closed position set filter is sound", "statement": "If the closed-position-set filter reports success for a block and window size, the machine never halts.", "quantifier": "every machine, block size, window size at least twice the block size, limits", "why_tests_cant": "Non-halting.", "anchors": ["Code/CPS.py: ClosedGraphSim.run, sim_config, update_set, Config, filter"]}
{"id": "C34", "title": "Backtracking filter is sound", "statement": "If backwards search reports that no halting transition can be reached, the machine never halts.", "quantifier": "every machine, depth and width limit", "why_tests_cant": "Non-halting; all predecessor trees.", "anchors": ["Code/Backtracking_Filter.py: backtrack_ttable, backtrack_single_halt, is_init_config, is_possible_config, get_info"]}
{"id": "C35", "title": "Reverse engineering filter is sound", "statement": "If the reverse-engineering filter reports a machine infinite, the machine never takes a halting or undefined transition.", "quantifier": "every machine", "why_tests_cant": "Non-halting.", "anchors": ["Code/Reverse_Engineer_Filter.py: is_infinite, cannot_reach_halt, get_stats"]}
{"id": "C36", "title": "Standard text format round-trips", "statement": "Printing a machine in standard text format and parsing it back gives a machine with identical behaviour (same cells, same halting and undefined cells); text that is not a machine is rejected.", "quantifier": "every machine with fewer than 25 states and 10 symbols; every string", "why_tests_cant": "Tables are arbitrary.", "anchors": ["Code/IO/TM_Record.py: parse_tm", "Code/Macro/Turing_Machine.py: Transition.to_ttable_str, Simple_Machine.ttable_str", "Code/IO/StdText.py"]}
{"id": "C37", "title": "Packed binary format round-trips", "statement": "Packing a machine with at most 7 states and 7 symbols into bytes and unpacking gives back the same table; one byte per cell; every byte is in range.", "quantifier": "every machine within the size limit", "why_tests_cant": "Tables are arbitrary.", "anchors": ["Code/IO/TM_Record.py: pack_tm, unpack_tm, pack_trans_ints, unpack_trans_ints"]}
{"id": "C38", "title": "Stored records reload with the same machine", "statement": "Writing a machine into a record (choosing packed or list form by its size) succeeds and reading the record back gives the same machine.", "quantifier": "every machine", "why_tests_cant": "Tables are arbitrary; the list form is only used for sizes no test covers.", "anchors": ["Code/IO/TM_Record.py: write_tm, read_tm, tm_to_list, tm_from_list"]}
{"id": "C39", "title": "Record files survive crashes at any point", "statement": "Reading a file written by the record writer yields exactly the written records in order; if the file is cut at any byte, reading yields a prefix of the records followed by end of file or an error, never a wrong record; loading the n-th record by skipping yields the n-th record.", "quantifier": "every list of records, every truncation point", "why_tests_cant": "Every byte offset is a crash point.", "anchors": ["Code/IO/Proto.py: Writer.write_record, Reader.read_record, skip_record, load_record"]}
{"id": "C40", "title": "Big integers round-trip through records", "statement": "Every integer stored in a record's big-integer field is read back unchanged.", "quantifier": "all integers", "why_tests_cant": "Infinitely many integers.", "anchors": ["Code/Halting_Lib.py: set_big_int, get_big_int"]}
{"id": "C41", "title": "BBChallenge binary database is read faithfully", "statement": "Reading the n-th 30-byte entry of a database yields the machine whose table is encoded there, with undefined cells exactly where encoded.", "quantifier": "every database content, every index", "why_tests_cant": "Arbitrary bytes.", "anchors": ["Code/IO/BBC.py: unpack_tm, unpack_trans_ints, Reader"]}
{"id": "C42", "title": "Enumeration children are exactly the TNF choices", "statement": "Expanding an undefined cell yields exactly the tables that fill that cell with a symbol at most one above the largest used, a state at most one above the largest used, and either direction - each once - and, when the cell is the last undefined one and non-halting machines are not wanted, nothing.", "quantifier": "every table and cell", "why_tests_cant": "Arbitrary tables.", "anchors": ["Code/TM_Enum.py: TM_Enum.enum_children, set_trans"]}
{"id": "C43", "title": "Tree normal form enumeration misses no machine", "statement": "For every complete machine that halts from blank tape, the enumeration tree contains a table that, up to renaming states and symbols, agrees with that machine on every transition it uses.", "quantifier": "every machine of the class", "why_tests_cant": "Exhaustiveness over the whole class.", "anchors": ["Code/TM_Enum.py: enum_children, blank_tm_enum", "Code/Enumerate.py: Enumerator.expand_undefined_transition"]}
{"id": "C44", "title": "Enumeration loses and duplicates nothing", "statement": "Whatever order the work queue delivers (stack, queue, or random), every table pushed to the queue is either expanded or written to the output exactly once, also when the run is stopped by its machine limit; the resulting multiset of records does not depend on the order.", "quantifier": "every queue discipline, every stop point", "why_tests_cant": "All schedules.", "anchors": ["Code/Work_Queue.py: Basic_LIFO_Work_Queue, Basic_FIFO_Work_Queue", "Code/Enumerate.py: Enumerator.continue_enum, add_result"]}
{"id": "C45", "title": "Distributed work queue loses and duplicates nothing", "statement": "Under every interleaving of master and workers and every message delay, each job pushed anywhere is handed out exactly once, and workers are told to stop only when no job is left anywhere.", "quantifier": "every schedule, every number of workers, every job tree", "why_tests_cant": "All interleavings.", "anchors": ["Code/MPI_Work_Queue.py: MPI_Worker_Work_Queue, MPI_Master_Work_Queue"]}
{"id": "C46", "title": "Renaming a machine preserves its behaviour", "statement": "Permuting states and symbols (fixing start state and blank) and mirroring directions yields a machine that runs for the same number of steps, halts iff the original halts and visits the corresponding states.", "quantifier": "every machine, every permutation", "why_tests_cant": "Arbitrary permutations and runs.", "anchors": ["Code/TNF.py: permute_table, to_TNF", "Code/LNF.py: permute"]}
{"id": "C47", "title": "Tree normal form conversion orders by first use", "statement": "Conversion to tree normal form yields a machine in which states and symbols are numbered in the order in which the run first needs them, so that it is one of the tables of the enumeration.", "quantifier": "every machine", "why_tests_cant": "All machines and runs.", "anchors": ["Code/TNF.py: to_TNF"]}
{"id": "C48", "title": "Lexical normal form is canonical", "statement": "Two machines that differ only by renaming of states and symbols and mirroring have the same lexical normal form.", "quantifier": "every machine and renaming", "why_tests_cant": "All renamings.", "anchors": ["Code/LNF.py: brute_lnf, iter_perms, permute"]}
{"id": "C49", "title": "Adjacent machines are exactly the one-cell variations", "statement": "The adjacency generator yields, at each step, a table obtained from the given one by replacing one running cell by a different running transition within the machine's states and symbols, and it yields each such table exactly once.", "quantifier": "every table", "why_tests_cant": "Arbitrary tables.", "anchors": ["Code/Adjacent.py: enum_cell, adjacent"]}
{"id": "C50", "title": "Backtracking's halted verdict is exact", "statement": "If backwards search from a halting cell reaches the start configuration and reports halted, the machine does halt, and the reported number of steps is exactly the number of transitions before the halting one.", "quantifier": "every machine, depth and width limit", "why_tests_cant": "All machines and all predecessor trees.", "anchors": ["Code/Backtracking_Filter.py: backtrack_single_halt, Partial_Config.apply_trans, is_init_config"]}
{"id": "C51", "title": "A text file of machines is read back whole", "statement": "Reading a text file written by the text writer (one machine per line, with or without halting results behind it) yields all the machines that were written, in order.", "quantifier": "every list of machines, with any result strings", "why_tests_cant": "The number of records and the tables are arbitrary; the size limits of the text format are not reached by tests.", "anchors": ["Code/IO/StdText.py: Writer.write_record, Reader.read_record, Reader.__iter__", "Code/Macro/Turing_Machine.py: Simple_Machine.ttable_str"]}
{"id": "C52", "title": "Simulation with recursive rules is exact", "statement": "With --recursive (rules proven with the help of other rules), a HALT verdict comes with the true step count and score, an INFINITE verdict means that the machine never halts, and the step count of a running simulation is that of a configuration of the machine.", "quantifier": "every machine, macro setting and run length", "why_tests_cant": "A rule covers infinitely many tapes and is used inside proofs of further rules; a wrong minimum only shows on machines that come back with a small count.", "anchors": ["Code/Macro/Proof_System.py: prove_rule (recursive), apply_diff_rule, apply_general_rule, Linear_Rule.try_gen", "Code/Macro/Simulator.py: step"]}
{"id": "C53", "title": "Counting the machines a table stands for", "statement": "Count.count returns, for every table an enumeration starting with A0->1RB writes, exactly the number of machines with that many states and symbols (first transition 1RB, halts 1RH, exactly one halt, or at most one with allow_no_halt) that are the table filled up and renamed; where a table stops, its count is the sum of the counts of its halting version and of its children; and over any output file of Enumerate, finished or cut off by a limit, the counts add up to the closed formula in the header of Count.py.", "quantifier": "for all numbers of states and symbols >= 2, all tables reachable in the enumeration tree, all sound halting verdicts, all queue orders and limits", "why_tests_cant": "the numbers of machines grow like (2QS)^(QS-2); tests can compare a few small totals but not show that no machine is counted twice or missed", "anchors": ["Code/Count.py:21-70", "Code/Count.py:79-84", "Code/TM_Enum.py:43-86", "Code/Enumerate.py:79-117"]}
{"id": "C54", "title": "Simulation with limited rules is exact", "statement": "With --limited-rules, a rule proved on one tape may be applied to every tape whose blocks within the touched distances look alike, whatever lies further out, and what it then says of the new tape, the number of steps and of running forever is true of the machine; the simulator never raises, its HALT and INFINITE verdicts, step counts and scores are those of the machine, in whatever order the matching rules are tried.", "quantifier": "every machine, macro setting, run length, order of trying rules, and every tape with the same near blocks", "why_tests_cant": "A limited rule stands for tapes with arbitrarily many different blocks beyond the ones seen in the proof; tests see only the tapes met from a blank start.", "anchors": ["Code/Macro/Proof_System.py:365-392", "Code/Macro/Proof_System.py:633-710", "Code/Macro/Proof_System.py:745-832", "Code/Macro/Proof_System.py:980-1065"]}
{"id": "C55", "title": "The status Macro_Simulator writes is true", "statement": "For a machine without a status, run_options passes it through the reverse engineering filter, the linear recurrence filter, the block finder, CTL2 and the simulation with prover, in this order as switched on, and writes one status: halting with steps, score and the cell, only if the machine halts in exactly so; infinite only if it never halts, with the quasihalting step and state those of the machine; and it always ends with a status: no exception, no endless loop, whatever block size is found.", "quantifier": "every well-formed machine, every choice of options and limits, every outcome of the floating point comparison in the block finder, every order of going through sets", "why_tests_cant": "The parts are combined with options that change each other's input (the block size chosen by measuring, cutoffs divided by 10 and 100); tests run a few machines with a few options.", "anchors": ["Code/Macro_Simulator.py:60-238", "Code/Macro/Block_Finder.py:44-179", "Code/Reverse_Engineer_Filter.py: is_infinite", "Code/Lin_Recur_Detect.py: filter", "Code/CTL2.py: test_CTL"]}
{"id": "C56", "title": "The file of an enumeration is a true and complete list of the class", "statement": "Enumerate.py, run on a class of machines with the simulation and filters that decide them, ends, and in the file it writes every record can be read back and is true: what is called halting halts explicitly after exactly that many steps from that state and symbol with that score, what is called infinite never halts. No machine is stored twice, and for every machine of the class that halts there is a record of it, up to names and left and right, with its number of steps and its score, unless that record (of the machine or of a table it extends) is marked unknown. A file without unknown records therefore settles the busy beaver competition for the class; in this way 2 states 2 symbols (6 steps, 4 symbols), 2 states 3 symbols (38, 9) and 3 states 2 symbols (21, 6) are settled.", "quantifier": "every class the packed format can hold, every choice of options and limits, every queue order and shuffle, every set of machines for which the timer goes off", "why_tests_cant": "The number of machines in a class grows like (4nm)^(nm); tests see a few files, and a missing or wrongly decided machine leaves no trace.", "anchors": ["Code/Enumerate.py:60-193", "Code/Enumerate.py:205-292", "Code/IO/TM_Record.py:123-180", "Code/TM_Enum.py:6-86", "Code/Macro_Simulator.py:56-238"]}
{"id": "C57", "title": "A linear rule applied in closed form does what applying it step by step does", "statement": "With --exp-linear-rules, apply_linear_rule applies a rule whose counts change like x -> m x + b as often as it can in one evaluation: the new counts are those after firing the rule some number k >= 1 of times one after the other, every time with all counts at least the proven minima, and afterwards it cannot fire again; 'applies infinitely' means that it can fire for ever; the tape is the same as that found by apply_general_rule with enough repetitions; the minimum computed for x -> (a b^(ux+v) + c)/d makes the function exceed its argument from there on.", "quantifier": "every rule Linear_Rule.try_gen makes (any number of blocks, integer coefficients), all counts; every exponential function with integer values", "why_tests_cant": "The number of repetitions and the counts grow exponentially; a test compares a few small counts.", "anchors": ["Code/Macro/Proof_System.py:99-172", "Code/Macro/Proof_System.py:1241-1305", "Code/Macro/Proof_System.py:1334-1408", "Code/Macro/Rule_Func.py:11-140"]}
{"id": "C58", "title": "A machine written in the format of morphett.info is read back as the same machine", "statement": "Morphett.Writer writes one line per transition, Morphett.Reader makes a machine of the lines: the machine read back makes the same run from the blank tape, step by step up to the numbering of states and symbols, halts after the same number of steps in the corresponding cell, with the same start state and blank; when every state has a transition and the start state has all of them it is the same table.", "quantifier": "every machine the other readers build, with any number of states and symbols, and every set of names without white space, ; and ! and not beginning with halt", "why_tests_cant": "Whether a machine survives depends on which cells are undefined: states and symbols are numbered in the order in which lines mention them, and those that no line begins with are unknown to the reader.", "anchors": ["Code/IO/Morphett.py:34-49", "Code/IO/Morphett.py:71-95", "Code/Macro/Turing_Machine.py:295-335"]}
{"id": "C59", "title": "A random sample of records is a uniform sample", "statement": "IO_Sample.py -n k writes k different records of the input files (all of them if there are fewer), every record being written with the same probability k/N, every set of k records with the same probability as every other, however the records are spread over the files, and prints the number of records scanned. The files may be complete or cut off inside the length of a record (then the rest is ignored); a file cut off inside a record does not change the chances of the others.", "quantifier": "any number of files with any number of records, every sample size, every set of records of size up to k", "why_tests_cant": "A bias shows only in the distribution over many runs; a test sees one run, or frequencies for one list.", "anchors": ["Code/IO_Sample.py:12-46", "Code/IO/Proto.py: Reader.read_record, Reader.skip_record"]}
{"id": "C60", "title": "Filters run over a file of records keep its statuses true", "statement": "CTL_Filter.py, CPS_Filter.py and Reverse_Engineer_Filter.py, run one after the other in any order and with any options on a file of records whose statuses are true, write true records of the same machines in the same order, one for every record: what is called halting halts with the stored steps and score, what is called infinite never halts, a quasihalting status is true, and the stored CTL parameters reproduce the result. A decision once made is not lost or changed, and every run ends.", "quantifier": "every file of true records, every list of tools, every choice of block sizes, offsets, cutoffs and limits, every order of going through sets", "why_tests_cant": "The tools set some fields and leave others as they were, so the result depends on the history of a record; tests run one filter on a fresh machine.", "anchors": ["Code/CTL_Filter.py:42-108", "Code/CPS_Filter.py:15-83", "Code/Reverse_Engineer_Filter.py:84-104", "Code/Halting_Lib.py:134-201", "Code/Lin_Recur_Detect.py: filter"]}
{"id": "C61", "title": "Sorting, splitting and counting record files loses nothing", "statement": "IO_Categorize.py writes every record to exactly one of its eight files, in order, prints their true numbers, and the names of the files are true of the machines in them (halting in less than 1000 steps, quasihalting, infinite without quasihalting, unknown); IO_Sort.py writes the same records by falling score, equal scores in their order; IO_Count.py prints the number of records, also for files cut off; Zero_Reflexive.py splits a file into the machines with a state that stays the same on a blank (or is undefined there) and those that never stay in a state on a blank.", "quantifier": "every list of files of true records, files cut off at every byte", "why_tests_cant": "Files have millions of records; a lost or doubled record leaves no trace, and the boundaries are met only by particular files.", "anchors": ["Code/IO_Categorize.py:15-86", "Code/IO_Sort.py:11-38", "Code/IO_Count.py:12-35", "Code/Zero_Reflexive.py:9-46", "Code/IO/Proto.py: Reader.skip_record"]}
{"id": "C62", "title": "A simulation that does not count steps makes the same run and reaches the same verdict", "statement": "With --no-steps (and with --exp-linear-rules, which switches the counting off), the simulator with the rule prover takes the same loops as with counting: the same outcome, score, halting cell and reason for an infinite verdict after the same number of loops, so halting cells and scores are those of the machine and infinite verdicts are true; seek stops at its limit; the status written into a record is that of the counting simulation, and the number of steps in it is true or absent.", "quantifier": "every machine, macro machine setting, prover limit and number of steps or loops", "why_tests_cant": "The two modes take different branches in every rule that is proven or applied; the rules that are applied depend on all that happened before.", "anchors": ["Code/Macro/Simulator.py:54-219", "Code/Macro/Proof_System.py:712-1036", "Code/Macro/Proof_System.py:1070-1434", "Code/Macro_Simulator.py:141-240"]}
{"id": "C63", "title": "The verdict on a machine does not depend on what was proved before in the same process", "statement": "Variables of rules are numbered by a counter that is never reset, and expressions are ordered by these numbers: whatever its value, the simulator with the plain, the limited or the recursive rule prover takes the same loops and ends with the same report (outcome, loops, steps, score, halting cell, reason and quasihalting status), with the recursive prover also with the same kinds of rules; the status that Enumerate and Macro_Simulator write for a machine is the same wherever the machine stands in the file. With limited rules this needs the iteration order of sets not to depend on the names of the variables.", "quantifier": "every machine, setting, set of options, and every two values of the counter", "why_tests_cant": "A test would have to decide a machine after every possible history of other machines.", "anchors": ["Code/Algebraic_Expression.py:67-90", "Code/Macro/Proof_System.py:572-1036", "Code/Macro/Proof_System.py:1070-1434", "Code/Macro_Simulator.py:56-240"]}
{"id": "C64", "title": "An enumeration can be stopped and taken up again from its records without losing or repeating machines", "statement": "Enumerate.py with --num-enum writes the machines it did not get to as unknown records, to be given to a later run as --infile. After any number of such runs, with any settings, limits, orders and choices of undecided records to take up, the records kept and written say the truth, contain no machine twice, and contain every machine of the class that halts, decided with its exact result or as a part of an undecided table; if none is undecided the class is settled; every such run ends; with the same settings throughout the records are those of one run without a limit. This needs the decided records to be left out of the next run and holds only without --allow-no-halt.", "quantifier": "every sequence of runs, every class size up to 7 by 7, setting of the pipeline, limit, queue order, and choice of undecided records", "why_tests_cant": "The runs of a campaign depend on each other; a test sees a few sequences for tiny classes, and the failures (duplicates, lost machines) leave no trace in the program.", "anchors": ["Code/Enumerate.py:70-135", "Code/Enumerate.py:138-207", "Code/Enumerate.py:225-228", "Code/IO/TM_Record.py:134-190"]}
{"id": "C65", "title": "Quick_Sim prints the truth about the machine, whatever is printed on the way", "statement": "Quick_Sim.py prints, for every machine, block size (given or found), backsymbol setting, prover, limit, --quiet and --freeze-prover: halted, with the exact number of steps and nonzeros; undefined, in the cell that is reached after that number of steps; infinite, only if the machine never halts, with a true quasihalting status; or that it gave up. Without a limit it finds out every machine that halts, never stops without an answer, and the lines printed on the way change neither the answer nor the number of loops nor the rules; --max-loops is the number of loops made.", "quantifier": "every machine, every combination of options, every number of loops between lines, any order of sets and any comparison of chain factors", "why_tests_cant": "Tests run a few machines with a few options; the answer is about unboundedly many steps that no test can run.", "anchors": ["Code/Quick_Sim.py:20-104", "Code/Quick_Sim.py:157-206", "Code/Macro/Proof_System.py:495-496", "Code/Macro/Proof_System.py:588-590", "Code/Macro/Simulator.py:119-170"]}
{"id": "C66", "title": "Filters between the runs of an enumeration change no result and can settle the class", "statement": "The undecided records of Enumerate.py, in any choice and order, are given to CTL_Filter.py (types 1 to 3), CPS_Filter.py and Reverse_Engineer_Filter.py, and enumeration goes on from what they leave undecided. Each filter run ends and writes the same machines in the same order, deciding only machines that do not halt; the records of the whole campaign stay true, hold no machine twice and miss no halting machine; the stored machines and the records of halting machines are those of one enumeration without filters; and if the filters leave nothing undecided, no machine of the class runs longer or scores more than the best record. Only undecided records may be given to the filters.", "quantifier": "every sequence of runs and filters, every class size up to 7 by 7, options of the runs and of the filters, iteration order of sets", "why_tests_cant": "A class is called settled because of thousands of verdicts by different programs; tests compare a few of them on tiny classes.", "anchors": ["Code/Enumerate.py:138-207", "Code/CTL_Filter.py:42-108", "Code/CPS_Filter.py:15-83", "Code/Reverse_Engineer_Filter.py:84-104", "Code/IO/TM_Record.py:134-190"]}
{"id": "C67", "title": "A machine named on the command line is the machine meant", "statement": "Most programs take a machine as text, as a file, or as file:number (IO.get_tm). The text the program prints for a machine names that machine whatever files there are; file:number is the machine of the record with that number when the file is read from its beginning, in each format, and a number behind the end is refused; file alone is number 0. The number Find_Record.py prints for a machine names that machine, it is the first such record, and when it prints nothing no record of the file holds the machine; likewise IO_Find.py over several files.", "quantifier": "every text, file name, file content, number and machine", "why_tests_cant": "Which of the three readings applies depends on the characters of the argument, and counting records depends on the whole content of the file; tests try a few names.", "anchors": ["Code/IO/General.py:14-69", "Code/IO/StdText.py:95-124", "Code/IO/Proto.py:82-140", "Code/IO/Morphett.py:69-102", "Code/Find_Record.py:11-20", "Code/IO_Find.py:10-31"]}
{"id": "C68", "title": "Re_Sim simulates a stored machine again as it was simulated and says the truth", "statement": "Re_Sim.py runs the simulator once more with the parameters that a record stores and overwrites the status and the simulation result. A record that the recursive simulation wrote with the usual limits and without a linear rule is not changed by it; doing it twice is the same as doing it once; the new status is true of the machine; what the record already proved is not lost, and the number of steps stays exact.", "quantifier": "every record, machine, stored parameters and limits", "why_tests_cant": "The result depends on what another program stored before; a test compares a few records, and a status that is lost or wrong leaves no trace.", "anchors": ["Code/Re_Sim.py:16-44", "Code/Macro_Simulator.py:136-240"]}
{"id": "C69", "title": "The Lazy Beaver number that the C++ program prints is right, and its files are true and complete", "statement": "lb_enum n m max_steps (cpp/src) ends for every n, m of at least 2 without reading outside of its tables. The set of step counts it collects has exactly those up to max_steps at which some machine with n states and m symbols halts on the blank tape; it prints LB = v if and only if v < max_steps and v is the least positive number with which no such machine halts. The witness file has one line for each number collected, with a machine that halts at exactly that step; each machine of the nonhalting file takes max_steps steps, and each machine with a halting cell that takes max_steps steps is followed so far, up to names and side, by a machine of that file.", "quantifier": "every number of states and symbols, every limit, every machine of the class (in any names of states and symbols and either orientation)", "why_tests_cant": "The printed number is a statement about all machines of the class; a test can compare it with known values of the smallest classes only.", "anchors": ["cpp/src/lb_enum.cpp:15-37", "cpp/src/lazy_beaver_enumerator.cpp:38-88", "cpp/src/enumerator.cpp:13-48", "cpp/src/simulator.cpp:11-73", "cpp/src/turing_machine.cpp:11-74"]}
{"id": "C70", "title": "What the C++ detector of linear recurrence says about a machine is true", "statement": "LinRecurDetect (cpp/src) never reads outside of its vectors. When it says that the machine halted, the last cell and the number of steps are exact, and every machine that halts within max_steps is reported so. When it says that the machine repeats, the machine never halts, from the start it gives on it repeats with the period and the offset it gives, and no shorter period exists. A machine that repeats is found when some power of two below max_steps is at least its start and its period. When it finds nothing, the machine has made at least max_steps steps. This needs max_steps of at least 2.", "quantifier": "every table of every size, every limit", "why_tests_cant": "A recurrence is a statement about infinitely many steps and every cell the head ever reads; a test can only run some machines for some time.", "anchors": ["cpp/src/lin_recur.cpp:13-102", "cpp/src/simulator.cpp:11-73"]}
{"id": "C71", "title": "The C++ enumeration by linear recurrence writes true files and loses no machine", "statement": "lr_enum n m max_steps ends for n, m of at least 2. Every line of the file of halting machines has the exact number of steps; every line of the file of infinite machines is a machine that never halts, with true period, offset and start; every machine of the file of undecided ones has made at least max_steps steps; no table is in the files twice. Every machine of the class whose first transition writes a nonblank symbol and leaves the first state is there up to names and side: in the first file if it halts early enough, else its beginning is in one of the others. So if nothing is undecided, the first file settles which step counts occur. The file of undecided machines is the same with and without only_unknown.", "quantifier": "every number of states and symbols, every limit, both settings of allow_no_halt and of only_unknown, every machine of the class", "why_tests_cant": "The files stand for all machines of a class; a test can compare counts for the smallest classes only.", "anchors": ["cpp/src/lr_enum.cpp:14-40", "cpp/src/lin_recur_enumerator.cpp:100-139", "cpp/src/enumerator.cpp:13-48", "cpp/src/turing_machine.cpp:11-74"]}
{"id": "C72", "title": "The text of a machine means the same machine to the C++ and the Python programs", "statement": "WriteTuringMachine writes every machine of less than 26 states and 10 symbols on one line without a line feed, and ReadTuringMachine reads the same table from this line, whatever remark follows behind a space, tab, comma, # or |. The Python parser reads the same machine from it and writes the same text (less than 25 states); and the C++ reader reads the same machine from every text that the Python programs write. The reader accepts every line that the Python reader accepts.", "quantifier": "every table of every admissible size, every remark behind it", "why_tests_cant": "The programs of both languages exchange files with millions of lines; tests compare a few of them.", "anchors": ["cpp/src/turing_machine.cpp:77-173", "Code/IO/TM_Record.py:14-36", "Code/Macro/Turing_Machine.py:69-80", "Code/Macro/Turing_Machine.py:273-281"]}
{"id": "C73", "title": "A C++ enumeration in two phases and in parallel finds what one enumeration finds", "statement": "Run lr_enum with a small limit, shuffle its file of undecided machines and split it into any number of files with shuffle_split.py, run lr_enum_continue on each with a larger limit: the lines of the files of halting and infinite machines of the first phase and of all parts together are, up to order, those of lr_enum with the larger limit, and the undecided machines are those of the parts. The same with lb_enum and lb_enum_continue, whose first limit is at least the number of states: the step counts in all the files are those up to the larger limit with which some machine halts. merge_steps_examples.py finds exactly the missing numbers between present ones; the first it prints is the Lazy Beaver number, and it prints it if a larger number is present.", "quantifier": "every number of states (2 to 25) and symbols (2 to 9), every two limits, every shuffling and splitting of the lines", "why_tests_cant": "A machine that is lost or doubled between the phases, or that is read again with other bounds than it was written with, shows only in the total of a run that nobody repeats in one piece.", "anchors": ["cpp/src/lr_enum_continue.cpp:14-50", "cpp/src/lb_enum_continue.cpp:14-39", "cpp/src/turing_machine.cpp:11-49", "cpp/scripts/shuffle_split.py:9-26", "cpp/scripts/merge_steps_examples.py:12-44"]}
{"id": "C74", "title": "What the C++ simulators say about the machines of a file is true", "statement": "direct_sim_all writes, for each line of the file, the text of its machine and Halt with the exact step or Unknown with the limit, true of the machine; the three numbers it prints count these lines. Its output is a file that it can read: simulating it again with any limit gives what the first file gives. direct_sim and lin_recur use the machine of the line whose number is given, and what they print about it is true; lin_recur finds every recurrence whose start and period are at most half of 2^log2(max_steps). Every line number and every log2(max_steps) gives a result.", "quantifier": "every file of machines with at most 25 states and 9 symbols with any remarks, every limit and line number", "why_tests_cant": "A verdict is a statement about all steps of a machine; files have millions of lines and a wrong verdict in one of them is not noticed.", "anchors": ["cpp/src/direct_sim_all.cpp:15-49", "cpp/src/direct_sim.cpp:14-29", "cpp/src/lin_recur_main.cpp:16-55", "cpp/src/turing_machine.cpp:175-183", "cpp/src/simulator.cpp:11-73"]}
{"id": "C75", "title": "Rules accepted by the Rust validator are true of the machine", "statement": "If validate_rule_set accepts a set of rules, then every rule of the set holds of the machine: for all values of the variables, and whatever stands on the tape beyond the ends of the rule's tapes, the machine runs from the initial configuration of the rule to its final configuration and leaves the rest of the tape as it was. A rule that starts on the blank tape and ends in the halting state shows that the machine halts, with the final tape it states. This holds for every accepted set of rules.", "quantifier": "for all Rust tables, rule sets, proofs by steps, by earlier rules and by induction, all substitutions, and all values of the variables; counts are sums of variables and constants or infinite", "why_tests_cant": "A rule speaks about infinitely many tapes; the tests of validator.rs run the validator on a few rule sets and can neither compare a rule with all its instances nor show that no false rule is accepted.", "anchors": ["rust/src/validator.rs:112-254", "rust/src/config.rs:88-249", "rust/src/config.rs:296-360", "rust/src/count_expr.rs:129-229", "rust/src/count_expr.rs:472-610", "rust/src/tm.rs:15-93"]}
{"id": "C76", "title": "Substitution and subtraction in the recursive expressions of the Rust validator keep their values", "statement": "Substituting in an expression of count_expr.rs gives an expression whose value, for all values of the variables, is the value of the first expression when its variables have the values of the substituted expressions; this holds if no variable is captured. If all bound variables have the same name, as in the functions that identity, plus and affine make, then normal forms keep the value, expressions that known_equal takes for equal have the same value, and checked_sub gives the difference. All this also holds without these conditions.", "quantifier": "for all expressions of any nesting, all substitutions, and all values of the variables", "why_tests_cant": "The value of a recursive expression is a repeated application whose count is a variable; the tests compare a few expressions as syntax and none of them has a free variable with the name of a bound one.", "anchors": ["rust/src/count_expr.rs:26-52", "rust/src/count_expr.rs:152-202", "rust/src/count_expr.rs:296-386", "rust/src/count_expr.rs:446-509"]}
