(** * Model of [Code/Quick_Sim.py], the program that runs one machine and prints a verdict

    Printing of tapes and tables, [--manual], [--latex] and [--start-state] (other than A) are not modelled. *)
Require Import ZArith List Bool Arith.
From Verif Require Import Spec_TM M_Turing_Machine M_Tape M_Simulator M_Settings M_Prover M_ProverLim M_ProverRec M_LinRecur M_CTL M_Pipeline.
Import ListNotations.
Open Scope nat_scope.

(** Quick_Sim.py lines 157-206: the options that Macro_Simulator.py does not have.  [q_quiet]: [--quiet] or
    [--verbose]; [q_options] are the others, of which [o_max_loops] is [--max-loops]; [o_block_limit] and
    [o_back_limit] are [--max-steps-in-block] and [--max-steps-in-backsymbol]. *)
Record quick_options := QuickOptions {
  q_quiet : bool; q_print_loops : nat; q_freeze : bool; q_bf_loops : nat; q_options : options }.

(** Proof_System.py lines 495-496 and 589: with the flag [frozen] log_and_apply does nothing once no proven
    rule applies *)
Section Frozen.
  Context {Sym St : Type} (M : machine Sym St).
  Definition frozen_plain (mc mr : nat) (p : prover (Sym := Sym) (St := St)) (t : ctape Z Sym) (q : St) (loop : nat)
    : option (prover (Sym := Sym) (St := St) * prover_result Z Sym) :=
    match kget M (strip_config z_is1 q t) (p_rules p) with
    | Some _ => log_and_apply M mc mr p t q loop
    | None => Some (p, PNothing)
    end.
  Definition frozen_rec (mc mr : nat) (p : rprover Sym St) (t : ctape Z Sym) (q : St) (loop : nat)
    : option (rprover Sym St * prover_result Z Sym) :=
    match kget M (strip_config z_is1 q t) (rp_rules p) with
    | Some _ => log_and_apply_r M mc mr p t q loop
    | None => Some (p, PNothing)
    end.
  Definition frozen_lim (order : forall A, list A -> list A) (p : lprover (Sym := Sym) (St := St)) (t : ctape Z Sym) (q : St) (loop : nat)
    : option (lprover (Sym := Sym) (St := St) * prover_result Z Sym) :=
    match try_lim (lp_next p) (order _ (lim_found M p (strip_config z_is1 q t))) t with
    | None => None
    | Some (next, Some result) => Some (LProver (lp_rules p) [] next, result)
    | Some (next, None) => Some (LProver (lp_rules p) (lp_past p) next, PNothing)
    end.

  (** a prover with the flag *)
  Definition freezable {P} (lap frozen : P -> ctape Z Sym -> St -> nat -> option (P * prover_result Z Sym))
             (p : bool * P) (t : ctape Z Sym) (q : St) (loop : nat) : option (bool * P * prover_result Z Sym) :=
    option_map (fun pr => (fst p, fst pr, snd pr)) ((if fst p then frozen else lap) (snd p) t q loop).
End Frozen.

Section Loops.
  Context {Sym St P : Type} (M : machine Sym St).
  Variable lap : P -> ctape Z Sym -> St -> nat -> option (P * prover_result Z Sym).
  (** lines 69-70; [None] is an exception *)
  Variable freeze : P -> option P.

  (** lines 52-56.  The fuel counts iterations; [max_loops = 0] is no limit. *)
  Fixpoint quiet_loop (fuel max_loops total : nat) (ps : P * sim Z Sym St) : option (P * sim Z Sym St) :=
    if cond_eqb (s_op (snd ps)) RUNNING && ((max_loops =? 0) || (total <? max_loops)) then
      match fuel with
      | O => None
      | S fuel => match sim_step zops M lap ps with
                  | Some ps => quiet_loop fuel max_loops (S total) ps
                  | None => None
                  end
      end
    else Some ps.
  (** lines 61-70 *)
  Fixpoint print_loop (fuel max_loops print_loops total : nat) (ps : P * sim Z Sym St) : option (P * sim Z Sym St) :=
    if cond_eqb (s_op (snd ps)) RUNNING && ((max_loops =? 0) || (total <? max_loops)) then
      match fuel with
      | O => None
      | S fuel =>
        match loop_seek zops M lap (s_loops (snd ps) + print_loops) ps with
        | Some (p, s) =>
          match freeze p with
          | Some p => print_loop fuel max_loops print_loops (total + print_loops) (p, s)
          | None => None
          end
        | None => None
        end
      end
    else Some ps.
End Loops.

(** lines 75-104: what is printed *)
Inductive answer :=
| AHalted (steps nonzeros : Z)
| AUndefined (state symbol : nat) (steps nonzeros : Z)
| AInfinite (reason : inf_reason) (quasihalt : quasi)
| AGaveUp
| AUnexpected.
Definition answer_of (r : report) : option answer :=
  match r_op r with
  | HALT => Some (AHalted (r_steps r) (r_nonzeros r))
  | UNDEFINED => match r_details r with
                 | DCell a q :: _ => Some (AUndefined q a (r_steps r) (r_nonzeros r))
                 | _ => None
                 end
  | INF_REPEAT => match r_inf r with
                  | Some (reason, _) => Some (AInfinite reason (report_quasi r))
                  | None => None
                  end
  | GAVE_UP => Some AGaveUp
  | RUNNING => Some AUnexpected
  end.

(** lines 203-204 *)
Definition print_loops_of (o : quick_options) : nat :=
  if negb (o_max_loops (q_options o) =? 0) && (o_max_loops (q_options o) <? q_print_loops o)
  then o_max_loops (q_options o) else q_print_loops o.

Section Quick.
  Variable faster : Z * Z -> Z * Z -> bool.
  Variable order : forall A, list A -> list A.
  Variable next : nat.
  (** the default arguments of the two macro machines, with which Block_Finder.py makes them: 10000 and 1000 *)
  Variables block_default back_default : nat.

  (** lines 48-72 on a stacked machine: the answer, the number of loops and the rules of a recursive prover *)
  Definition quick_loops {Sym St P} (M : machine Sym St) (o : quick_options) (fuel : nat)
             (lap : P -> ctape Z Sym -> St -> nat -> option (P * prover_result Z Sym)) (freeze : P -> option P) (p : P)
    : option (P * sim Z Sym St) :=
    if q_quiet o then quiet_loop M lap fuel (o_max_loops (q_options o)) 0 (p, sim_init zops M)
    else print_loop M lap (if q_freeze o then freeze else Some) fuel (o_max_loops (q_options o)) (print_loops_of o) 0 (p, sim_init zops M).
  Definition quick_result {Sym St P} (M : machine Sym St) (rules : P -> list rrule) (res : option (P * sim Z Sym St))
    : option (answer * nat * list rrule) :=
    match res with
    | Some (p, s) => option_map (fun a => (a, s_loops s, rules p)) (answer_of (report_of M s))
    | None => None
    end.
  Definition quick_machine (tab : ttable) (g : setting) (o : quick_options) (fuel : nat) : option (answer * nat * list rrule) :=
    let mc := o_max_configs (q_options o) in
    let mr := o_max_reps (q_options o) in
    let frozen {P} (p : bool * P) := Some (true, snd p) in
    with_machine tab g (fun _ _ M =>
      match o_prover (q_options o) with
      | NoProver => quick_result M (fun _ => []) (quick_loops M o fuel no_prover (fun _ => None) tt)
      | Plain => quick_result M (fun _ => [])
          (quick_loops M o fuel (freezable (log_and_apply M mc mr) (frozen_plain M mc mr)) frozen (false, prover_init next))
      | Limited => quick_result M (fun _ => [])
          (quick_loops M o fuel (freezable (log_and_apply_lim M mc mr order) (frozen_lim M order)) frozen (false, lprover_init next))
      | Recursive => quick_result M (fun p => map snd (rp_rules (snd p)))
          (quick_loops M o fuel (freezable (log_and_apply_r M mc mr) (frozen_rec M mc mr)) frozen (false, rprover_init next))
      end).

  (** lines 20-42: the block size, without a maximum, and the machine.  [None]: exception or out of fuel. *)
  Definition quick_sim (tab : ttable) (o : quick_options) (fuel : nat) : option (answer * nat * list rrule) :=
    let q := q_options o in
    match (if o_block_size q =? 0
           then block_finder faster tab block_default back_default fuel (q_bf_loops o) (o_block_mult q) (o_max_block_mult q) 0
           else Some (o_block_size q)) with
    | Some k => quick_machine tab (stack q k (o_backsymbol q)) o fuel
    | None => None
    end.
End Quick.
