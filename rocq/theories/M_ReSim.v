(** * Model of [Code/Re_Sim.py]: simulating again the machines of a record file

    The simulation is that of M_Pipeline ([Macro_Simulator.simulate_machine]). *)
Require Import ZArith List Lia Bool Arith.
From Verif Require Import Spec_TM M_Turing_Machine M_Direct M_Tape M_Simulator M_Settings M_Prover M_ProverLim M_ProverRec
  M_LinRecur M_Pipeline.
Import ListNotations.
Open Scope nat_scope.

(** io.proto lines 132-150, SimulatorParams: the fields that Re_Sim.py reads.  The other fields are written only. *)
Record sim_params := SimParams { sp_block : nat; sp_back : bool; sp_loops : nat; sp_tape : nat }.
(** what Re_Sim.py reads and writes of a record: [filter.simulator.parameters], [filter.simulator.result.num_linear_rules_proven] and
    [status].  All fields are 0, false and unknown in a record that was never simulated. *)
Record stored := Stored { sd_params : sim_params; sd_linear : nat; sd_status : status }.
Definition never_simulated (st : status) : stored := Stored (SimParams 0 false 0 0) 0 st.

(** Proof_System.py lines 899-902: the rules accepted by [Linear_Rule.try_gen].  Only the recursive prover finds some (P_Prover). *)
Definition is_linear (r : rrule) : bool :=
  match rr_rule r with
  | RGen vars _ result _ _ _ => forallb linear_shape (combine vars result)
  | RDiff _ _ _ _ => false
  end.
Definition num_linear {Sym St} (p : rprover Sym St) : nat := length (filter is_linear (map snd (rp_rules p))).

Section ReSim.
  Variable order : forall A, list A -> list A.
  Variable next : nat.

  (** Macro_Simulator.py lines 136-183: [simulate_machine] with the fields that it writes.  [k]: the block size. *)
  Definition simulate_stored (tab : ttable) (o : options) (g : setting) (k : nat) (back : bool) (fuel : nat) : option stored :=
    with_machine tab g (fun _ _ M =>
      let run {P} (lap : P -> _ -> _ -> nat -> option (P * prover_result Z _)) (linear : P -> nat) (p : P) :=
        match sim_loop M lap fuel (o_max_loops o) (o_tape_limit o) (p, sim_init zops M) with
        | Some (p, s) =>
          option_map (Stored (SimParams k back (o_max_loops o) (o_tape_limit o)) (linear p)) (status_of M (o_tape_limit o) s)
        | None => None
        end in
      match o_prover o with
      | NoProver => None
      | Plain => run (log_and_apply M (o_max_configs o) (o_max_reps o)) (fun _ => 0) (prover_init next)
      | Limited => run (log_and_apply_lim M (o_max_configs o) (o_max_reps o) order) (fun _ => 0) (lprover_init next)
      | Recursive => run (log_and_apply_r M (o_max_configs o) (o_max_reps o)) num_linear (rprover_init next)
      end).

  (** Re_Sim.py lines 20-24 *)
  Definition resim_setting (p : sim_params) (o : options) : setting :=
    if 1 <? sp_block p then
      if sp_back p then SBlockBack (sp_block p) 0 (o_block_limit o) (o_back_limit o) else SBlock (sp_block p) 0 (o_block_limit o)
    else if sp_back p then SBack (o_back_limit o) else SBase.
  (** lines 27-33, with the defaults of Proof_System.py lines 28-51 and of Turing_Machine.py lines 358 and 451.  The options of
      [run_options] are not used by [simulate_machine]. *)
  Definition resim_options (p : sim_params) : options :=
    {| o_reverse := false; o_lin_steps := 0; o_lin_min := false; o_run_sim := true; o_block_size := sp_block p; o_backsymbol := sp_back p;
       o_ctl := false; o_max_loops := sp_loops p; o_tape_limit := sp_tape p; o_block_mult := 0; o_max_block_mult := 0; o_max_block_size := 0;
       o_prover := Recursive; o_max_configs := Z.to_nat 100000; o_max_reps := 10; o_block_limit := Z.to_nat 10000; o_back_limit := Z.to_nat 1000 |}.

  (** lines 35-38: the simulation with [--exp-linear-rules] is not modelled, it is any function.  It does not count steps: its [step_num] is 0
      and its [states_last_seen] is None when the status is written (Macro_Simulator.py lines 205-206 and 234). *)
  Variable linear_sim : ttable -> options -> setting -> nat -> option (nat * status).
  Definition without_steps (s : status) : status :=
    match s with
    | Unknown => Unknown
    | Halting _ score q a => Halting 0 score q a
    | Infinite source _ => Infinite source QUndecided
    end.

  (** lines 16-44 *)
  Definition re_sim (tab : ttable) (r : stored) (fuel : nat) : option stored :=
    let p := sd_params r in
    let o := resim_options p in
    let g := resim_setting p o in
    if 0 <? sd_linear r then
      option_map (fun ls => Stored p (fst ls) (without_steps (snd ls))) (linear_sim tab o g fuel)
    else simulate_stored tab o g (sp_block p) (sp_back p) fuel.
End ReSim.
