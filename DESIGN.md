# Formal model of sligocki/busy-beaver (Python part) in Coq 8.16.1

## Layout

Everything is in `rocq/theories`, one flat directory; the prefix says what a file is for.

* `Spec_*.v` – specifications that do not mention the model: a Turing machine on a tape indexed by
  `Z` (`Spec_TM`), renamings of machines (`Spec_Rename`), values of integer formulas (`Spec_ExpInt`).
* `M_*.v` – the code, function by function.  Every definition cites file and lines of `/repo`;
  simplifications are named in the same comment.
* `P_*.v` – lemmas.
* `Prop_*.v` – the property theorems `Cnn_...`, each with concrete `Example`s that meet its hypotheses,
  and a `Print Assumptions`.

`properties.jsonl` lists the properties, `MANIFEST.json` says which theorems settle which property,
`seeded/LOG.jsonl` records the wrong programs the theorems were tried on.

Names: `_partial` marks a theorem that settles a property only under an extra hypothesis (the missing
part is named beside it); `_refuted` marks a theorem that gives a concrete counterexample to the property
as it is stated, or to a claim made in a comment of the code.

## Method

Reference semantics: `Spec_TM`: a transition function `state -> symbol -> action`, configurations (state,
head position, tape `Z -> symbol`), one step, `n` steps, halting in a cell, score.  Everything that runs
machines is related to it by refinement: direct simulator, window simulation, block and backsymbol macro
machines, run length tape, accelerated simulator, rule prover (default, `--limited-rules`, `--recursive`),
deciders, enumeration.

* Python exceptions and failed assertions are `None`.  Theorems either prove that no exception occurs or
  speak of calls that return.
* Loops that Python does not bound are given fuel; theorems quantify over the fuel or show that a certain
  amount suffices.
* Python `int` is `Z`; `Fraction` is `Q`, compared by value; `float` appears only as an arbitrary function
  or is not modelled (see below).
* Mutable state is passed explicitly (transition caches, prover memory, the global counter of variables,
  message channels of the MPI queue).
* Iteration orders that Python leaves open (sets), random shuffles and message delays are parameters, and
  theorems hold for every choice.

## Per property plan

| id | modelled | proof method |
|----|----------|--------------|
| C01, C02 | `Direct_Simulator.py` deque/index/position arithmetic | simulation invariant between the deque and a function on `Z`, induction on steps / operation lists |
| C03 | `tm_from_quintuples`, `Simple_Machine` | induction over the quintuple list |
| C04, C08 | `sim_limited` loop with Brent checkpointing | loop invariant (run so far, saved configuration reachable); pigeonhole for completeness |
| C05, C06 | `Block_Macro_Machine`, `Backsymbol_Macro_Machine` | generic "machine soundness" predicate preserved by each layer |
| C07 | same, with abandonment inside blocks | witness machine (refutation) and theorem under "no abandonment" |
| C09 | `get_trans_object` cache as state passing | invariant: every cache entry equals fresh evaluation |
| C10 | `Chain_Tape` | denotation as two infinite streams |
| C11–C13 | `Simulator.step` without prover | composition of the refinements, induction over loops |
| C14, C15 | `Algebraic_Expression.py` over `Q` | evaluation homomorphism by induction on term lists |
| C16–C18 | `Proof_System.py`: `prove_rule`, `apply_diff_rule`, `apply_general_rule`, `log_and_apply` | a symbolic tape denotes a family of tapes; one symbolic step denotes the concrete steps; induction on repetitions |
| C19 | `series_sum` | closed forms by induction; refutation witnesses for the cubic / fractional cases |
| C20 | `Rule_Func.py` without floats | induction on repetitions |
| C21, C22 | `Math.py` | Euclid; Euler/Carmichael theorem |
| C23, C24 | `Exp_Int.py` | value function; refutation for comparison and remainder |
| C25–C27 | `Lin_Recur_Detect.py` | translated cycles: induction; monotonicity of the test; binary search invariant |
| C28 | `Halting_Lib.set_inf_recur` + Lin recurrence | infinite runs |
| C29–C32 | `CTL1..4.py` over an abstract machine | closed language invariant; refutation for CTL4's initial language |
| C33 | `CPS.py` | closed graph invariant: tape outside the window is a path in the continuation graph |
| C34, C50 | `Backtracking_Filter.py` | backwards reachability invariant; refutation for a halting start cell |
| C35 | `Reverse_Engineer_Filter.py` | invariant on positions of the halting symbol |
| C36, C51 | text format, text files | decoding/encoding inverse, by induction |
| C37, C38 | packed and list format | bit arithmetic; refutations for list format and 8 symbols |
| C39 | `Proto.py` framing over byte lists | induction; every prefix |
| C40 | `set_big_int`/`get_big_int` | hex printing/parsing inverse |
| C41 | `BBC.py` | byte arithmetic |
| C42, C43 | `TM_Enum.py` | list membership; bisimulation up to injective renaming |
| C44 | `Work_Queue.py`, `Enumerate.continue_enum` | invariant over queue contents, permutation; the tree is finite |
| C45 | `MPI_Work_Queue.py` | transition system with message channels, inductive invariant |
| C46–C48 | `Permute.py`, `TNF.py`, `LNF.py` | bisimulation; refutation witnesses |
| C49 | `Adjacent.py` | list membership |
| C52 | `Proof_System.py` with `--recursive` | as C16–C18, with polynomial counts of steps: a rule applied to a symbolic tape denotes its application to every instance |
| C53 | `Count.py` | counting renamed fillings by explicit duplicate free lists; induction over the tree |
| C54 | `Proof_System.py` with `--limited-rules` | a proof replays on tapes with other far blocks |
| C55 | `Macro_Simulator.py`, `Block_Finder.py` | composition of C07, C18, C25–C31, C35, C54; totality by measures |
| C56 | `Enumerate.py` with the pipeline | composition of C37, C43, C44, C55; concrete classes by evaluation in the kernel |
| C57 | `Linear_Rule`, `apply_linear_rule`, `Pow_Func.compute_min` | closed form against iteration; refinement of `apply_general_rule` |
| C58 | `IO/Morphett.py` on character lists | printing and parsing of a line; order of first mention; tables equal up to an injective renaming |
| C59 | `IO_Sample.py` over a rational probability monad | reservoir invariant by induction on the records, for every subset of records; a cut file breaks it |
| C60 | `CTL_Filter.py`, `CPS_Filter.py`, `Reverse_Engineer_Filter.py` on records with all status fields | invariant on records, composition of C25, C28–C31, C33, C35; refutations by evaluation |
| C61 | `IO_Categorize.py`, `IO_Sort.py`, `IO_Count.py`, `Zero_Reflexive.py` | permutations; stable sorting; byte level for counting |
| C62 | `Simulator.py`, `Proof_System.py`, `Macro_Simulator.py` with `--no-steps` | lockstep with the counting simulator; the number of steps stays 0 |
| C63 | the global counter of variables | renaming of expressions by monotone maps commutes with the plain, limited and recursive provers, the whole state of the simulator included |
| C64 | `Enumerate.py` with `--num-enum` and `--infile` | induction on the sequence of runs: the records are a cut of one tree; queue of jobs simulates queue of tables |
| C65 | `Quick_Sim.py`: `run`, `--print-loops`, `--freeze-prover` | invariant of the simulator through both loops; measure `halting time - steps` for the end; determinism of the iteration for the printing |
| C66 | `CTL_Filter.py`, `CPS_Filter.py`, `Reverse_Engineer_Filter.py` between runs of `Enumerate.py` | a filter run is a run whose statuses are truthful and never halting, so it is a stage of C64; same tree because both statuses expand the same nodes |
| C67 | `IO/General.py`, `load_record` of the formats, `Find_Record.py`, `IO_Find.py` | the regular expression as a recognizer equal to its language; skipping and reading agree record by record; packed tables and texts are injective |
| C68 | `Re_Sim.py` | the counter of variables is irrelevant (C63), so the second run is the first one; concrete records for what is lost |
| C69 | `cpp/src/turing_machine`, `simulator`, `enumerator`, `lazy_beaver_enumerator`, `lb_enum` | the vector tape is a tape; a C++ table is a table of the Python enumeration with the same children; the depth first list of machines is a forest (C44), in which every machine that stops early enough is found (C43) |
| C70 | `cpp/src/lin_recur` | comparison of half tapes and sections is equality of the cells the head can reach; theory of linear recurrence of C19; reference configurations at powers of two |
| C71 | `cpp/src/lin_recur_enumerator`, `lr_enum` | the forest of C69 started at the table with 1RB; the detector decides like a simulation up to a power of two |
| C72 | `WriteTuringMachine`, `ReadTuringMachine` | induction on rows and cells over character lists; the text is that of the Python table (C45 and its lemmas), so both parsers agree |
| C73 | `lr_enum_continue`, `lb_enum_continue`, `shuffle_split`, `merge_steps_examples` | the forest of nodes of the larger limit is that of the smaller one with forests at its open leaves (induction on forests); a machine is the same when read again, or only writes blanks and by the pigeonhole principle never stops |
| C74 | `direct_sim_all`, `direct_sim`, `lin_recur_main` | induction on the lines of the file, with the simulation relation of C69 and the detector of C70 |
| C75 | the Rust validator of rules | tapes as streams, every operation on half tapes keeps the stream, induction on the value of the induction variable for inductive rules |
| C76 | recursive expressions of the Rust validator | values of expressions under assignments, induction on the expression; capture refuted by computed examples |

## What is modelled

Each line: model file, the code it follows.

* `M_CPS.v` – `CPS.py`, `CPS_Filter.py`
* `M_CTL.v` – `CTL1.py`, `CTL2.py`, `CTL3.py`, `CTL4.py`
* `M_Campaign.v` – `CPS_Filter.py`, `CTL_Filter.py`, `Enumerate.py`, `Reverse_Engineer_Filter.py`, `TM_Record.py`
* `M_Count.v` – `Count.py`
* `M_Cpp.v` – `enumerator.cpp`, `lazy_beaver_enumerator.cpp`, `lb_enum.cpp`, `simulator.cpp`, `turing_machine.cpp`
* `M_CppIO.v` – `lazy_beaver_enumerator.cpp`, `lb_enum_continue.cpp`, `lin_recur_enumerator.cpp`, `lr_enum_continue.cpp`, `merge_steps_examples.py`, `shuffle_split.py`, `turing_machine.cpp`
* `M_CppLR.v` – `lin_recur.cpp`, `lin_recur_enumerator.cpp`, `lr_enum.cpp`
* `M_CppSim.v` – `direct_sim.cpp`, `direct_sim_all.cpp`, `lin_recur_main.cpp`, `turing_machine.cpp`
* `M_Direct.v` – `Direct_Simulator.py`
* `M_Enum.v` – `Adjacent.py`, `Enumerate.py`, `LNF.py`, `Permute.py`, `TM_Enum.py`, `TNF.py`, `Turing_Machine.py`, `Work_Queue.py`
* `M_Enumerate.v` – `Enumerate.py`, `Macro_Simulator.py`, `TM_Record.py`
* `M_ExpInt.v` – `Exp_Int.py`, `Math.py`
* `M_Expr.v` – `Algebraic_Expression.py`
* `M_Filters.v` – `Backtracking_Filter.py`, `Reverse_Engineer_Filter.py`
* `M_IO.v` – `BBC.py`, `Halting_Lib.py`, `Proto.py`, `StdText.py`, `TM_Record.py`, `Turing_Machine.py`
* `M_LinRecur.v` – `Halting_Lib.py`, `Lin_Recur_Detect.py`, `Macro_Simulator.py`
* `M_Linear.v` – `Macro_Simulator.py`, `Proof_System.py`, `Rule_Func.py`
* `M_Load.v` – `Find_Record.py`, `General.py`, `IO_Find.py`, `Morphett.py`, `Proto.py`, `StdText.py`
* `M_MPI.v` – `MPI_Work_Queue.py`
* `M_Math.v` – `Math.py`, `Rule_Func.py`
* `M_Morphett.v` – `Morphett.py`, `TM_Record.py`, `Turing_Machine.py`
* `M_NoSteps.v` – `Macro_Simulator.py`, `Proof_System.py`, `Simulator.py`
* `M_Pipeline.v` – `Block_Finder.py`, `CPS_Filter.py`, `Halting_Lib.py`, `Macro_Simulator.py`, `Proof_System.py`, `Simulator.py`, `Tape.py`, `Turing_Machine.py`
* `M_Prover.v` – `Algebraic_Expression.py`, `Proof_System.py`, `Rule_Func.py`
* `M_ProverLim.v` – `Proof_System.py`, `Tape.py`
* `M_ProverRec.v` – `Algebraic_Expression.py`, `Macro_Simulator.py`, `Proof_System.py`, `Rule_Func.py`
* `M_ProverRun.v` – `Macro_Simulator.py`, `Simulator.py`
* `M_Quick.v` – `Block_Finder.py`, `Macro_Simulator.py`, `Proof_System.py`, `Quick_Sim.py`
* `M_ReSim.v` – `Macro_Simulator.py`, `Proof_System.py`, `Re_Sim.py`, `Turing_Machine.py`
* `M_Resume.v` – `Enumerate.py`, `TM_Record.py`
* `M_Rust.v` – `config.rs`, `count_expr.rs`, `tm.rs`, `validator.rs`
* `M_RustExpr.v` – `count_expr.rs`
* `M_Sample.v` – `IO_Sample.py`
* `M_Settings.v` – `Macro_Simulator.py`, `Quick_Sim.py`, `Simulator.py`, `Turing_Machine.py`
* `M_Simulator.v` – `Proof_System.py`, `Simulator.py`
* `M_Tape.v` – `Tape.py`
* `M_Tools.v` – `CPS.py`, `CPS_Filter.py`, `CTL_Filter.py`, `Halting_Lib.py`, `IO_Categorize.py`, `IO_Count.py`, `IO_Sort.py`, `Reverse_Engineer_Filter.py`, `TM_Record.py`, `Turing_Machine.py`, `Zero_Reflexive.py`
* `M_Turing_Machine.v` – `Turing_Machine.py`

## What is not modelled

* `Proof_System.py`: the option `--exp-meta-linear-rules` and rules in closed form applied to expressions, the simulation with `--exp-linear-rules` and `--recursive` (the application of one rule is modelled in `M_Linear.v`), `--no-steps` with limited or recursive rules;
  printing and statistics.  Counts above `2**20` that are formulas (`ExpInt`) in proofs.
* `Exp_Int.py`: exponents with variables, Fraction operands, printing, and the floating point estimates, which are
  arbitrary functions in the model.
* `Math.py`: `prec_mult`, `prec_add` (floating point).
* Protocol buffers themselves, gzip, pickled `ExpInt` values; records are byte strings.
* Wall clock limits, signals (`Alarm.py`), logging, the command line parsers, `Visual_Simulator.py`,
  `Curses_Sim.py`, `TM_Print.py`, `ngram_entropy.py`.  In `Block_Finder.py` the comparison of two floating point ratios is an arbitrary function.
* The tests and benchmarks, of the Rust part everything but the validator of rules (M_Rust, whose counts are sums; the recursive expressions are modelled apart from it in M_RustExpr), and of the C++ part the messages, statistics and timing, the compression of files, the main functions that read arguments, the shell scripts and the tests. The enumerations are modelled in M_Cpp and M_CppLR, reading and writing, the programs that continue an enumeration and the scripts that split and merge their files in M_CppIO, the simulators of the machines of a file in M_CppSim.

## What was found

Refuted claims (each has a concrete witness proved in Coq):

* `C07_spurious_repeat_refuted`
* `C07_default_limits_refuted`
* `C08_double_bound_refuted`
* `C12_abandoned_block_refuted`: Without that proviso C12 is false: the machine of C07, simulated with block size 2, backsymbol and a limit of 3 steps per block, is declared infinite after one loop, but halts.
* `C17_zero_reps_refuted`: With max_num_reps = 0 general rules fail an assertion, so the hypothesis on [mr] is needed.
* `C19_cubic_refuted`: A cubic coefficient is squared: the sum of 2 k^3 for k < 3 is given as 36, not 18.
* `C19_fractions_refuted`
* `C20_fixed_point_refuted`: At a fixed point the function raises instead of returning the start value.
* `C20_fractional_coef_refuted`: For fractional coefficients the minimum is not safe: 3/2 x - 1 is below x at the computed minimum 1; 1/2 x + 1 is below x at 3 although 1 is said to suffice. A coefficient of 1 with a negative constant divides by zero.
* `C21_lcm_of_zeros_refuted`
* `C23_remainder_refuted`
* `C23_negative_divisor_refuted`: A formula cannot be divided by a negative integer, even if the quotient is exact: the sign of the denominator is lost in the computation of the common divisor.
* `C23_power_of_one_refuted`: A power of 1 is never built: the normalisation does not end.
* `C24_large_int_refuted`
* `C24_constant_refuted`: 2^4000 + 1 > 2^4000 is False: the constant is not counted.
* `C24_sign_refuted`: 2^4000 - 2^4001, the second an int, counts as positive.
* `C26_limit_one_refuted`: With max_steps = 1 the filter raises, for every machine: line 104 reads a variable that has not been assigned.
* `C28_macro_repeat_refuted`
* `C32_ctl4_refuted`
* `C33_one_block_window_refuted`
* `C34_first_step_refuted`
* `C36_malformed_rejected_refuted`: Text that names no machine is accepted too: a next state that is no letter, the empty text, rows of different lengths.
* `C38_symbol_7_refuted`
* `C38_list_form_refuted`
* `C41_skip_result_refuted`: skip_record documents that it returns False if no records are left; it always returns False on a file that was just opened, and always after it
* `C45_master_crash_refuted`: With one worker and 38 jobs the master raises an exception in its first round: target_queue_size is a float, and so is then the bound of the slice that cuts off a batch. Nothing moves any more, no job has been handed out, all are left.
* `C45_worker_crash_refuted`: Likewise a worker, once it has received a new maximal queue size and has more jobs than that.
* `C45_delayed_push_refuted`: If a message with another tag may be seen before one sent earlier by the same worker, as MPI allows: a worker sends 6 of its 31 jobs to the master, works off the others and asks for more; the master sees the request first and stops everybody, with 6 jobs under way.
* `C46_score_refuted`: But the stopping transition becomes 1RZ, so the final tape and its score may change.
* `C47_three_symbols_refuted`: With three symbols the conversion can give a machine whose very first transition is in no table of the enumeration, because it numbers symbols when they are read, the enumeration when they are written.
* `C48_mirror_refuted`: A machine and its mirror image have different normal forms.
* `C48_symbols_refuted`: A machine without any halting cell and the same machine with its two symbols exchanged.
* `C51_large_machine_refuted`: A machine with 25 states or 10 symbols is written as an empty line, at which the reader stops: the records after it are lost.
* `C51_symbol_7_refuted`
* `C52_infinite_verdict_refuted`
* `C52_step_count_refuted`: The step count can go down when such a rule is applied, although every transition of the machine adds a step: after 145 loops it is smaller than after 144.
* `C55_abandoned_block_refuted`: With a block size of 3 and the defaults otherwise, a machine that halts is written down as infinite: a block is abandoned after [max_block] steps and taken for one that repeats (C07).
* `C55_recursive_refuted`: With [--recursive] a machine that halts is written down as infinite (C52).
* `C55_quasihalt_refuted`: A machine that quasihalts is written down as one that does not, when the repeat is inside a block.
* `C55_lin_one_refuted`: [--lin-steps=1] raises an exception for every machine that is not caught by the filter before.
* `C55_no_prover_refuted`: Without prover the simulation ends with an exception, whatever the machine: nothing is written.
* `C56_eight_states_refuted`: The bound on the class cannot be left out: with 8 states the enumeration, with its default settings, fails at the seventh machine, where standardize_halt_trans packs a table that write_tm would not.
* `C57_fixed_point_refuted`
* `C57_pow_loop_refuted`: It does not answer, however long it runs, if the minimum is a fixed point of the function, as for x -> 2^(x-1) from 1.
* `C58_unread_symbol_refuted`: Machines in tree normal form need not come back: a symbol written that nothing reads, or a state entered that has no transition, raise ValueError.
* `C58_empty_state_refuted`
* `C58_start_state_refuted`: A start state without transitions is lost: the machine read back starts in another one, and runs forever where the one written stops at once.
* `C58_two_records_refuted`: Two records in one file become one machine: the second overwrites cells of the first.
* `C58_symbol_7_refuted`: such a machine is written, and its file is refused
* `C59_count_refuted`: "Scanned ... total records" is one more than the number of records.
* `C59_truncated_refuted`: A file that ends in the middle of a record is counted one too many if that record happens to be skipped: of two complete records, one in such a file and one in the next file, the first is sampled with probability 7/12 and the second with 5/12.
* `C60_cps_forgets_refuted`
* `C60_offset_refuted`
* `C60_ctl4_refuted`
* `C60_quasihalt_forgotten_refuted`
* `C61_infinite_quasihalts_refuted`: The file "infinite", in the code "Infinite (non quasihalting)", also gets machines of which only the halting is decided: here one that quasihalts at step 1.
* `C61_count_refuted`: so the number printed can be one more than the number of records that can be read
* `C62_recorded_steps_refuted`: a machine that halts after one step at least has a false number of steps in its record
* `C62_seek_refuted`: [seek 2] ends with the machine running after counting 2 steps, but only at the halt without counting
* `C64_whole_file_refuted`: The help text says that one can continue with the file of a run. With the file as it is, the halting machines in it are run and expanded again: 13 records become 221, in a class of 61.
* `C64_allow_no_halt_refuted`: With [--allow-no-halt] the records do not say so, and the run that continues does not know it: 88 of the 149 machines are lost, among them this one.
* `C65_max_loops_refuted`: [--max-loops=5 --print-loops=3] makes 6 loops.
* `C65_freeze_refuted`: [--freeze-prover] without a prover raises an exception after the first line, whatever the machine.
* `C65_print_loops_refuted`: [--print-loops=0] never ends, whatever the machine.
* `C65_abandoned_block_refuted`
* `C66_whole_file_refuted`
* `C67_gz_text_refuted`: a compressed text file cannot be read
* `C67_colon_name_refuted`: a file whose name has a colon, or is a machine, cannot be named at all
* `C67_literal_name_refuted`
* `C67_negative_refuted`: "file:-1" is not refused
* `C67_blank_line_refuted`
* `C67_find_large_refuted`
* `C67_io_find_text_refuted`: IO_Find compares texts: another text of the same machine is not found
* `C68_verdict_erased_refuted`: A record whose status was not found by the simulator - by Lin_Recur_Detect, CTL, Reverse_Engineer, CPS or backtracking - has no parameters of a simulation. Re_Sim.py always makes it unknown, for every machine and whatever the status was.
* `C68_true_to_false_refuted`: A true status found with the default prover is replaced by a false one: Re_Sim.py always turns on recursive rules.
* `C68_steps_lost_refuted`: A record with a linear rule is simulated without counting steps; a halting status then says 0 steps, which is never true.
* `C69_one_state_refuted`: With one state and two symbols the children have a second state, which the table has not: as soon as a machine may take two steps, the program reads outside its table. With one symbol the same happens to symbols.
* `C69_one_symbol_refuted`
* `C70_limit_one_refuted`: With a limit of 0 or 1 every machine is left undecided, also one that halts at its first step, and the number of steps of the reference configuration that is printed is not initialized.
* `C71_one_state_refuted`: With one state the table of the start has no row for its second state.
* `C72_large_refuted`: Larger machines are not written, the program exits.
* `C72_lines_refuted`: A blank line is undefined behaviour, a line with a carriage return ends the program, and a halting state with any other letter than Z, which Python takes for halting, makes the simulator read outside of its table.
* `C74_no_line_refuted`: A line number behind the end of the file is not reported: the programs use a null pointer. With log2(max_steps) = 0 lin_recur prints a number that was never assigned, for every machine.
* `C74_log_zero_refuted`
* `C75_admit_refuted`: with [Admit] a false rule passes: a machine without any transition "halts"
* `C76_capture_refuted`: with capture it is wrong: [(λx. x + y)^1 (1)] with [x] for [y] becomes [(λx. 2x)^1 (1)]
* `C76_equal_refuted`

Also seen while reading, outside the modelled functions: `Backtracking_Filter.py` calls `IO.parse_ttable`, which does not exist.

## Trusted base

* Coq 8.16.1's kernel, including its virtual machine (`vm_compute` is used in examples and for witnesses).
* The faithfulness of the transcription: each definition cites the lines it follows.
* No axioms: every theorem below is reported by `Print Assumptions` as *Closed under the global context*.
  No kernel check is switched off, and there are no admitted proofs.
* Standard library only.

| property | theorem | `Print Assumptions` |
|---|---|---|
| C01 | `C01_direct_simulation_exact` | closed |
| C01 | `C01_direct_halted_iff` | closed |
| C02 | `C02_direct_tape_is_array` | closed |
| C03 | `C03_quintuple_machine` | closed |
| C03 | `C03_quintuple_accepts` | closed |
| C04 | `C04_window_simulation_exact` | closed |
| C05 | `C05_block_machine_exact` | closed |
| C05 | `C05_block_machine_layer` | closed |
| C06 | `C06_backsymbol_machine_exact` | closed |
| C06 | `C06_backsymbol_machine_layer` | closed |
| C07 | `C07_spurious_repeat_refuted` | closed |
| C07 | `C07_default_limits_refuted` | closed |
| C07 | `C07_no_spurious_repeat_partial` | closed |
| C07 | `C07_stack_otherwise_exact` | closed |
| C08 | `C08_repeat_detector_complete` | closed |
| C08 | `C08_repeat_detector_time` | closed |
| C08 | `C08_double_bound_refuted` | closed |
| C09 | `C09_cache_transparent` | closed |
| C09 | `C09_block_cache_transparent` | closed |
| C09 | `C09_cache_bounded` | closed |
| C10 | `C10_single_move` | closed |
| C10 | `C10_chain_move` | closed |
| C10 | `C10_chain_is_single_moves` | closed |
| C10 | `C10_infinite_chain` | closed |
| C10 | `C10_blocks_stay_distinct` | closed |
| C10 | `C10_nonzeros` | closed |
| C11 | `C11_halting_exact` | closed |
| C11 | `C11_seek_finds_halt` | closed |
| C12 | `C12_infinite_verdicts_partial` | closed |
| C12 | `C12_recurring_states` | closed |
| C12 | `C12_abandoned_block_refuted` | closed |
| C13 | `C13_running_snapshot` | closed |
| C13 | `C13_settings_agree` | closed |
| C14 | `C14_expression_arithmetic` | closed |
| C14 | `C14_never_raises` | closed |
| C14 | `C14_substitute` | closed |
| C14 | `C14_substitute_number` | closed |
| C14 | `C14_variable_plus_constant` | closed |
| C14 | `C14_linear` | closed |
| C15 | `C15_minimum_is_lower_bound` | closed |
| C15 | `C15_minimum_attained` | closed |
| C15 | `C15_always_ge` | closed |
| C15 | `C15_always_gt` | closed |
| C15 | `C15_equal` | closed |
| C16 | `C16_rules_are_true` | closed |
| C16 | `C16_rules_are_true_base` | closed |
| C17 | `C17_applying_is_running` | closed |
| C17 | `C17_zero_reps_refuted` | closed |
| C18 | `C18_halting_exact` | closed |
| C18 | `C18_infinite_verdicts_partial` | closed |
| C18 | `C18_running_snapshot` | closed |
| C18 | `C18_seek_finds_halt` | closed |
| C19 | `C19_series_sum_partial` | closed |
| C19 | `C19_constant` | closed |
| C19 | `C19_cubic_refuted` | closed |
| C19 | `C19_fractions_refuted` | closed |
| C19 | `C19_quartic_refused` | closed |
| C20 | `C20_subtract_max_reps` | closed |
| C20 | `C20_subtract_apply_rep` | closed |
| C20 | `C20_add_apply_rep` | closed |
| C20 | `C20_mult_apply_rep` | closed |
| C20 | `C20_fixed_point_refuted` | closed |
| C20 | `C20_mult_compute_min` | closed |
| C20 | `C20_fractional_coef_refuted` | closed |
| C21 | `C21_gcd` | closed |
| C21 | `C21_lcm` | closed |
| C21 | `C21_lcm_of_zeros_refuted` | closed |
| C21 | `C21_int_pow` | closed |
| C21 | `C21_int_pow_smallest` | closed |
| C21 | `C21_prime_factor` | closed |
| C21 | `C21_prime_factor_refuses` | closed |
| C22 | `C22_exp_mod` | closed |
| C22 | `C22_exp_mod_refuses` | closed |
| C22 | `C22_carmichael_exponent` | closed |
| C23 | `C23_values` | closed |
| C23 | `C23_remainder_partial` | closed |
| C23 | `C23_floor_division_partial` | closed |
| C23 | `C23_remainder_refuted` | closed |
| C23 | `C23_negative_divisor_refuted` | closed |
| C23 | `C23_power_of_one_refuted` | closed |
| C24 | `C24_small_partial` | closed |
| C24 | `C24_small_defined` | closed |
| C24 | `C24_large_against_int` | closed |
| C24 | `C24_large_int_refuted` | closed |
| C24 | `C24_constant_refuted` | closed |
| C24 | `C24_sign_refuted` | closed |
| C25 | `C25_lin_recurrence_true` | closed |
| C25 | `C25_period_shortest` | closed |
| C26 | `C26_halting_exact` | closed |
| C26 | `C26_recurrence_found` | closed |
| C26 | `C26_limit_one_refuted` | closed |
| C27 | `C27_minimal_start` | closed |
| C27 | `C27_check_recur_exact` | closed |
| C28 | `C28_lin_recur_quasihalt` | closed |
| C28 | `C28_simulator_quasihalt_partial` | closed |
| C28 | `C28_macro_repeat_refuted` | closed |
| C29 | `C29_ctl1_sound` | closed |
| C29 | `C29_ctl_answers` | closed |
| C30 | `C30_ctl2_sound` | closed |
| C31 | `C31_ctl3_sound` | closed |
| C32 | `C32_ctl4_refuted` | closed |
| C32 | `C32_ctl4_sound_partial` | closed |
| C33 | `C33_cps_sound` | closed |
| C33 | `C33_cps_answers` | closed |
| C33 | `C33_cps_filter_all_sound` | closed |
| C33 | `C33_one_block_window_refuted` | closed |
| C34 | `C34_backtrack_sound_partial` | closed |
| C34 | `C34_first_step_refuted` | closed |
| C34 | `C34_backtrack_answers` | closed |
| C35 | `C35_reverse_engineer_sound` | closed |
| C35 | `C35_unreachable_cell` | closed |
| C35 | `C35_reverse_engineer_answers` | closed |
| C36 | `C36_every_machine_is_std` | closed |
| C36 | `C36_text_round_trip` | closed |
| C36 | `C36_text_meaning` | closed |
| C36 | `C36_text_accepted` | closed |
| C36 | `C36_malformed_rejected_refuted` | closed |
| C37 | `C37_packed_round_trip` | closed |
| C38 | `C38_stored_record_partial` | closed |
| C38 | `C38_symbol_7_fails` | closed |
| C38 | `C38_symbol_7_refuted` | closed |
| C38 | `C38_list_form_exact` | closed |
| C38 | `C38_list_form_refuted` | closed |
| C38 | `C38_list_keeps_table` | closed |
| C39 | `C39_read_all` | closed |
| C39 | `C39_cut` | closed |
| C39 | `C39_load` | closed |
| C39 | `C39_load_cut` | closed |
| C39 | `C39_write_total` | closed |
| C40 | `C40_big_int_round_trip` | closed |
| C41 | `C41_entry` | closed |
| C41 | `C41_load` | closed |
| C41 | `C41_end` | closed |
| C41 | `C41_skip_result_refuted` | closed |
| C41 | `C41_skip_never_true` | closed |
| C42 | `C42_children_exact` | closed |
| C43 | `C43_no_machine_missed` | closed |
| C43 | `C43_no_machine_missed_1rb` | closed |
| C43 | `C43_follows` | closed |
| C43 | `C43_no_machine_twice` | closed |
| C44 | `C44_ends` | closed |
| C44 | `C44_all_once` | closed |
| C44 | `C44_ends_iff` | closed |
| C44 | `C44_limit` | closed |
| C44 | `C44_tree` | closed |
| C45 | `C45_nothing_lost_or_duplicated` | closed |
| C45 | `C45_stops_when_done_partial` | closed |
| C45 | `C45_no_deadlock_partial` | closed |
| C45 | `C45_master_crash_refuted` | closed |
| C45 | `C45_worker_crash_refuted` | closed |
| C45 | `C45_delayed_push_refuted` | closed |
| C46 | `C46_renamed_run` | closed |
| C46 | `C46_score_refuted` | closed |
| C46 | `C46_start_states` | closed |
| C47 | `C47_first_visit_order` | closed |
| C47 | `C47_in_tree_partial` | closed |
| C47 | `C47_three_symbols_refuted` | closed |
| C48 | `C48_same_machine` | closed |
| C48 | `C48_canonical_partial` | closed |
| C48 | `C48_mirror_refuted` | closed |
| C48 | `C48_symbols_refuted` | closed |
| C49 | `C49_adjacent_exact` | closed |
| C50 | `C50_backtrack_halted_exact` | closed |
| C51 | `C51_text_file` | closed |
| C51 | `C51_text_file_written` | closed |
| C51 | `C51_large_machine_refuted` | closed |
| C51 | `C51_symbol_7` | closed |
| C51 | `C51_symbol_7_refuted` | closed |
| C51 | `C51_large_machine_is_blank` | closed |
| C52 | `C52_infinite_verdict_refuted` | closed |
| C52 | `C52_step_count_refuted` | closed |
| C52 | `C52_halting_exact_partial` | closed |
| C52 | `C52_infinite_verdicts_partial` | closed |
| C52 | `C52_running_snapshot_partial` | closed |
| C53 | `C53_count_exact` | closed |
| C53 | `C53_root` | closed |
| C53 | `C53_children_add_up` | closed |
| C53 | `C53_total` | closed |
| C53 | `C53_total_limit` | closed |
| C54 | `C54_limited_rule_is_true` | closed |
| C54 | `C54_halting_exact` | closed |
| C54 | `C54_infinite_verdicts_partial` | closed |
| C54 | `C54_running_snapshot` | closed |
| C54 | `C54_seek_finds_halt` | closed |
| C55 | `C55_status_true_partial` | closed |
| C55 | `C55_answers` | closed |
| C55 | `C55_abandoned_block_refuted` | closed |
| C55 | `C55_recursive_refuted` | closed |
| C55 | `C55_quasihalt_refuted` | closed |
| C55 | `C55_lin_one_refuted` | closed |
| C55 | `C55_no_prover_refuted` | closed |
| C56 | `C56_records_true_partial` | closed |
| C56 | `C56_no_machine_twice` | closed |
| C56 | `C56_ends` | closed |
| C56 | `C56_no_machine_missed_partial` | closed |
| C56 | `C56_settled` | closed |
| C56 | `C56_reached` | closed |
| C56 | `C56_champions` | closed |
| C56 | `C56_busy_beaver_2_2` | closed |
| C56 | `C56_busy_beaver_2_3` | closed |
| C56 | `C56_busy_beaver_3_2` | closed |
| C56 | `C56_eight_states_refuted` | closed |
| C57 | `C57_applied` | closed |
| C57 | `C57_infinite` | closed |
| C57 | `C57_below` | closed |
| C57 | `C57_exception` | closed |
| C57 | `C57_fixed_point_refuted` | closed |
| C57 | `C57_same_tape` | closed |
| C57 | `C57_pow_min` | closed |
| C57 | `C57_pow_loop_refuted` | closed |
| C58 | `C58_round_trip` | closed |
| C58 | `C58_numbers` | closed |
| C58 | `C58_identical` | closed |
| C58 | `C58_noise_lines` | closed |
| C58 | `C58_halt_any_case` | closed |
| C58 | `C58_unread_symbol_refuted` | closed |
| C58 | `C58_empty_state_refuted` | closed |
| C58 | `C58_start_state_refuted` | closed |
| C58 | `C58_two_records_refuted` | closed |
| C58 | `C58_record` | closed |
| C58 | `C58_symbol_7_refuted` | closed |
| C59 | `C59_outcomes` | closed |
| C59 | `C59_total` | closed |
| C59 | `C59_uniform` | closed |
| C59 | `C59_each` | closed |
| C59 | `C59_sets` | closed |
| C59 | `C59_few` | closed |
| C59 | `C59_count_refuted` | closed |
| C59 | `C59_truncated_refuted` | closed |
| C60 | `C60_records_stay_true` | closed |
| C60 | `C60_decisions_kept` | closed |
| C60 | `C60_cps_forgets_refuted` | closed |
| C60 | `C60_offset_refuted` | closed |
| C60 | `C60_ctl4_refuted` | closed |
| C60 | `C60_tools_end` | closed |
| C60 | `C60_quasihalt_forgotten_refuted` | closed |
| C61 | `C61_categorize_partition` | closed |
| C61 | `C61_categories_true` | closed |
| C61 | `C61_infinite_quasihalts_refuted` | closed |
| C61 | `C61_sort` | closed |
| C61 | `C61_count` | closed |
| C61 | `C61_count_cut` | closed |
| C61 | `C61_count_refuted` | closed |
| C61 | `C61_zero_reflexive` | closed |
| C62 | `C62_same_run` | closed |
| C62 | `C62_verdicts_true` | closed |
| C62 | `C62_seek_ends` | closed |
| C62 | `C62_status` | closed |
| C62 | `C62_recorded_steps_refuted` | closed |
| C62 | `C62_seek_refuted` | closed |
| C63 | `C63_counter_irrelevant` | closed |
| C63 | `C63_limited` | closed |
| C63 | `C63_recursive` | closed |
| C63 | `C63_status` | closed |
| C64 | `C64_records_true_partial` | closed |
| C64 | `C64_no_machine_twice` | closed |
| C64 | `C64_no_machine_missed_partial` | closed |
| C64 | `C64_settled` | closed |
| C64 | `C64_continues` | closed |
| C64 | `C64_same_records` | closed |
| C64 | `C64_whole_file_refuted` | closed |
| C64 | `C64_allow_no_halt_refuted` | closed |
| C65 | `C65_answer_true_partial` | closed |
| C65 | `C65_loops` | closed |
| C65 | `C65_answers` | closed |
| C65 | `C65_finds_halt` | closed |
| C65 | `C65_fuel` | closed |
| C65 | `C65_same_answer` | closed |
| C65 | `C65_max_loops_refuted` | closed |
| C65 | `C65_freeze_refuted` | closed |
| C65 | `C65_print_loops_refuted` | closed |
| C65 | `C65_abandoned_block_refuted` | closed |
| C66 | `C66_filter_step` | closed |
| C66 | `C66_filter_ends` | closed |
| C66 | `C66_settles` | closed |
| C66 | `C66_same_halting` | closed |
| C66 | `C66_whole_file_refuted` | closed |
| C67 | `C67_literal_exact` | closed |
| C67 | `C67_literal` | closed |
| C67 | `C67_plain` | closed |
| C67 | `C67_record` | closed |
| C67 | `C67_text_file` | closed |
| C67 | `C67_record_file` | closed |
| C67 | `C67_find` | closed |
| C67 | `C67_find_text` | closed |
| C67 | `C67_io_find` | closed |
| C67 | `C67_negative` | closed |
| C67 | `C67_more_parts` | closed |
| C67 | `C67_gz_text_refuted` | closed |
| C67 | `C67_colon_name_refuted` | closed |
| C67 | `C67_literal_name_refuted` | closed |
| C67 | `C67_negative_refuted` | closed |
| C67 | `C67_blank_line_refuted` | closed |
| C67 | `C67_find_large_refuted` | closed |
| C67 | `C67_io_find_text_refuted` | closed |
| C67 | `C67_format` | closed |
| C67 | `C67_line_ends` | closed |
| C68 | `C68_same_record` | closed |
| C68 | `C68_again` | closed |
| C68 | `C68_status_true_partial` | closed |
| C68 | `C68_verdict_erased_refuted` | closed |
| C68 | `C68_true_to_false_refuted` | closed |
| C68 | `C68_steps_lost_refuted` | closed |
| C69 | `C69_lazy_beaver` | closed |
| C69 | `C69_printed` | closed |
| C69 | `C69_files` | closed |
| C69 | `C69_nonhalt_complete` | closed |
| C69 | `C69_one_state_refuted` | closed |
| C69 | `C69_one_symbol_refuted` | closed |
| C70 | `C70_halting_exact` | closed |
| C70 | `C70_recurrence_true` | closed |
| C70 | `C70_recurrence_found` | closed |
| C70 | `C70_limit_one_refuted` | closed |
| C71 | `C71_ends` | closed |
| C71 | `C71_files` | closed |
| C71 | `C71_no_machine_missed` | closed |
| C71 | `C71_settles` | closed |
| C71 | `C71_one_state_refuted` | closed |
| C72 | `C72_round_trip` | closed |
| C72 | `C72_python_reads` | closed |
| C72 | `C72_reads_python` | closed |
| C72 | `C72_large_refuted` | closed |
| C72 | `C72_lines_refuted` | closed |
| C73 | `C73_lr_parallel` | closed |
| C73 | `C73_split` | closed |
| C73 | `C73_holes` | closed |
| C73 | `C73_lazy_beaver` | closed |
| C73 | `C73_lb_parallel` | closed |
| C74 | `C74_direct_all` | closed |
| C74 | `C74_again` | closed |
| C74 | `C74_direct_sim` | closed |
| C74 | `C74_lin_recur` | closed |
| C74 | `C74_no_line_refuted` | closed |
| C74 | `C74_log_zero_refuted` | closed |
| C75 | `C75_rules` | closed |
| C75 | `C75_reaches` | closed |
| C75 | `C75_halts` | closed |
| C75 | `C75_admit_refuted` | closed |
| C76 | `C76_normalize` | closed |
| C76 | `C76_equal` | closed |
| C76 | `C76_sub` | closed |
| C76 | `C76_subst` | closed |
| C76 | `C76_capture_refuted` | closed |
| C76 | `C76_equal_refuted` | closed |
