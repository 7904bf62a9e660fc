(** * A simulator with the rule prover, as the command line tools build it *)
Require Import ZArith List Lia Bool Arith.
From Verif Require Import Spec_TM M_Turing_Machine M_Tape M_Simulator M_Settings M_Prover.
Import ListNotations.

(** Simulator.py lines 60-62 and 241-246, Macro_Simulator.py lines 118-128: a fresh
    simulator with a fresh, non-recursive prover.  [mc] and [mr] are the options
    max_prover_configs and max_num_reps, [next] the value of the global counter
    [Variable.num_vars] at that time.  [None] is a raised exception. *)
Definition run_prover (tab : ttable) (g : setting) (mc mr next : nat) (d : driver) : option report :=
  with_machine tab g (fun _ _ M =>
    match drive M (log_and_apply M mc mr) d (prover_init next, sim_init zops M) with
    | Some (_, s) => Some (report_of M s)
    | None => None
    end).
