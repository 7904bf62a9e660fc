(** * How the command line tools stack machines and read results off a simulator *)
Require Import ZArith List Lia Bool Arith.
From Verif Require Import Spec_TM M_Turing_Machine M_Tape M_Simulator.
Import ListNotations.

(** Macro_Simulator.py lines 118-123 and Quick_Sim.py lines 34-42: the base machine,
    optionally grouped into blocks, optionally with backsymbol.  [k] is the block
    size, [off] the offset of Block_Macro_Machine (0 for none), [mb] and [mk] the
    limits max_sim_steps_per_symbol of the two layers (10000 by default). *)
Inductive setting :=
| SBase
| SBlock (k off mb : nat)
| SBack (mk : nat)
| SBlockBack (k off mb mk : nat).

(** hands the stacked machine to [f] (its symbol and state types depend on the
    setting) *)
Definition with_machine (tab : ttable) (g : setting) {A : Type}
           (f : forall Sym St, machine Sym St -> A) : A :=
  match g with
  | SBase => f _ _ (simple_machine tab)
  | SBlock k off mb => f _ _ (block_machine (simple_machine tab) k off mb)
  | SBack mk => f _ _ (back_machine (simple_machine tab) mk)
  | SBlockBack k off mb mk =>
    f _ _ (back_machine (block_machine (simple_machine tab) k off mb) mk)
  end.

(** Turing_Machine.py lines 359 and 371: block size positive, offset within a block *)
Definition valid_setting (g : setting) : bool :=
  match g with
  | SBlock k off _ | SBlockBack k off _ _ => (0 <? k)%nat && (off <? k)%nat
  | _ => true
  end.

(** ways to run a simulator: [n] calls of step, loop_seek(n), seek(z)
    (Simulator.py lines 111-125) *)
Inductive driver := Steps (n : nat) | LoopSeek (n : nat) | Seek (z : Z).

Definition drive {Sym St P} (M : machine Sym St)
           (lap : P -> ctape Z Sym -> St -> nat -> option (P * prover_result Z Sym))
           (d : driver) (ps : P * sim Z Sym St) : option (P * sim Z Sym St) :=
  match d with
  | Steps n => sim_iter zops M lap n ps
  | LoopSeek n => loop_seek zops M lap n ps
  | Seek z => sim_seek M lap z ps
  end.

(** what a caller reads off: op_state, step_num, get_nonzeros(), op_details,
    inf_reason and inf_recur_states, states_last_seen, num_loops *)
Record report := Report {
  r_op : cond; r_steps : Z; r_nonzeros : Z; r_details : list detail;
  r_inf : option (inf_reason * option (list nat)); r_seen : option (ndict Z); r_loops : nat }.

Definition report_of {Sym St} (M : machine Sym St) (s : sim Z Sym St) : report :=
  Report (s_op s) (s_steps s) (sim_nonzeros zops M s) (s_details s) (s_inf s) (s_seen s) (s_loops s).

(** a fresh simulator without prover; [None] is a raised exception *)
Definition run_plain (tab : ttable) (g : setting) (d : driver) : option report :=
  with_machine tab g (fun _ _ M =>
    match drive M no_prover d (tt, sim_init zops M) with
    | Some (_, s) => Some (report_of M s)
    | None => None
    end).
