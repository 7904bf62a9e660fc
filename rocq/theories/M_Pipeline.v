(** * Model of [Code/Macro_Simulator.py] (run_options, simulate_machine) and of
    [Code/Macro/Block_Finder.py]

    How Enumerate decides one machine: a series of filters, a choice of a block size and
    the simulation with the rule prover.  The protocol buffer message is the status that
    is written into it; timing, statistics and parameters copied into the message are not
    modelled.  Options are natural numbers (negative ones are rejected by the unsigned
    fields of io.proto or fail an assertion). *)
Require Import ZArith List Lia Bool Arith.
From Verif Require Import Spec_TM M_Turing_Machine M_Direct M_Tape M_Simulator M_Settings M_Prover M_ProverRun
  M_ProverLim M_ProverRec M_LinRecur M_CTL M_Filters.
Import ListNotations.
Open Scope nat_scope.

(** the options prover, limited_rules and recursive (limited_rules and recursive together are
    not modelled) *)
Inductive prover_kind := NoProver | Plain | Limited | Recursive.

(** Macro_Simulator.py lines 26-54, Proof_System.py lines 28-51, Turing_Machine.py lines
    14-30 and Block_Finder.py lines 22-41: the options.  [o_block_size = 0]: not given.
    [o_block_limit] and [o_back_limit] are the default arguments max_sim_steps_per_symbol of the
    two macro machines, 10000 and 1000 (Turing_Machine.py lines 358 and 451). *)
Record options := Options {
  o_reverse : bool; o_lin_steps : nat; o_lin_min : bool; o_run_sim : bool;
  o_block_size : nat; o_backsymbol : bool; o_ctl : bool;
  o_max_loops : nat; o_tape_limit : nat;
  o_block_mult : nat; o_max_block_mult : nat; o_max_block_size : nat;
  o_prover : prover_kind; o_max_configs : nat; o_max_reps : nat;
  o_block_limit : nat; o_back_limit : nat }.

(** BBStatus (Halting_Lib.py lines 134-201) with the field inf_reason; FromClosedGraph is what CPS_Filter.py
    writes (M_Campaign.v) *)
Inductive inf_source := FromReverse | FromLinRecur | FromCTL | FromClosedGraph | FromSim (r : inf_reason).
Inductive status :=
| Unknown
| Halting (steps score : Z) (from_state from_symbol : nat)
| Infinite (source : inf_source) (quasihalt : quasi).

(** Tape.py line 66 *)
Definition tape_size {Sym} (t : ctape Z Sym) : nat := length (ct_l t) + length (ct_r t).

(** ** Block_Finder.py *)

(** lines 66-79, the loop over [range(compression_search_loops)].  [None]: exception,
    [Some None]: the simulator has stopped. *)
Fixpoint worst_loop {Sym St} (M : machine Sym St) (count : nat) (s : sim Z Sym St) (max_length worst : nat)
  : option (option (nat * nat)) :=
  match count with
  | O => Some (Some (max_length, worst))
  | S count =>
    match sim_step zops M no_prover (tt, s) with
    | None => None
    | Some (_, s) =>
      let n := tape_size (s_tape s) in
      let '(max_length, worst) := if max_length <? n then (n, s_loops s) else (max_length, worst) in
      if cond_eqb (s_op s) RUNNING then worst_loop M count s max_length worst else Some None
    end
  end.

(** lines 168-176, uncompress_tape; [[symbol] * inf] is an exception.  The first block of a Python
    list, here the last, is cut off. *)
Fixpoint expand {Sym} (h : list (blk Z Sym)) : option (list Sym) :=
  match h with
  | [] => Some []
  | b :: h =>
    match k_num b, expand h with
    | Some z, Some l => Some (repeat (k_sym b) (Z.to_nat z) ++ l)
    | _, _ => None
    end
  end.
Definition uncompress_tape {Sym} (t : ctape Z Sym) : option (list Sym) :=
  match expand (rev (removelast (ct_l t))), expand (removelast (ct_r t)) with
  | Some l, Some r => Some (l ++ r)
  | _, _ => None
  end.

(** lines 178-184, compression_efficiency; the loop over [range(0, len(tape) - 2*k, k)].  A size is
    a Python int. *)
Fixpoint list_eqb {A} (eqb : A -> A -> bool) (a b : list A) : bool :=
  match a, b with
  | [], [] => true
  | x :: a, y :: b => eqb x y && list_eqb eqb a b
  | _, _ => false
  end.
Fixpoint range_loop (fuel i stop k : nat) : list nat :=
  match fuel with
  | O => []
  | S fuel => if i <? stop then i :: range_loop fuel (i + k) stop k else []
  end.
Definition compression_efficiency {Sym} (eqb : Sym -> Sym -> bool) (tape : list Sym) (k : nat) : Z :=
  fold_left (fun size i =>
      if list_eqb eqb (firstn k (skipn i tape)) (firstn k (skipn (i + k) tape)) then (size - Z.of_nat k)%Z else size)
    (range_loop (length tape) 0 (length tape - 2 * k) k) (Z.of_nat (length tape)).

(** lines 97-106; [max_block_size = 0] is infinity (lines 49-52) *)
Definition at_most (max_block_size k : nat) : bool := (max_block_size =? 0) || (k <=? max_block_size).
Fixpoint best_size {Sym} (eqb : Sym -> Sym -> bool) (tape : list Sym) (max_block_size : nat) (sizes : list nat)
         (min_compr : Z) (opt_size : nat) : nat :=
  match sizes with
  | [] => opt_size
  | k :: sizes =>
    let size := compression_efficiency eqb tape k in
    if (size <? min_compr)%Z then
      if at_most max_block_size k then best_size eqb tape max_block_size sizes size k else opt_size
    else best_size eqb tape max_block_size sizes min_compr opt_size
  end.

(** lines 63-116: [Some None]: the machine stops, block size 1 is good; otherwise opt_size *)
Definition compression_search {Sym St} (M : machine Sym St) (loops max_block_size : nat) : option (option nat) :=
  if loops =? 0 then Some (Some 1) else
  let s := sim_init zops M in
  match worst_loop M loops s (tape_size (s_tape s)) 0 with
  | None => None
  | Some None => Some None
  | Some (Some (max_length, worst)) =>
    match loop_seek zops M no_prover worst (tt, s) with
    | None => None
    | Some (_, s) =>
      if tape_size (s_tape s) =? max_length then   (* the assertion of line 87 *)
        match uncompress_tape (s_tape s) with
        | None => None
        | Some tape =>
          Some (Some (best_size (m_sym_eqb M) tape max_block_size (seq 1 (length tape / 2 - 1))
                                (Z.of_nat (length tape) + 1) 1))
        end
      else None
    end
  end.

(** lines 141-146 with Simulator.py lines 189-215: a run without prover that counts the steps of
    macro moves and of chain moves *)
Record counted {Sym St : Type} := Counted { c_sim : sim Z Sym St; c_macro : Z; c_chain : Z }.
Arguments counted : clear implicits. Arguments Counted {Sym St}.
Definition is_chain {Sym St} (M : machine Sym St) (s : sim Z Sym St) : bool :=
  match ct_top (s_tape s) with
  | None => false
  | Some top =>
    match m_trans M (k_sym top) (s_state s) (s_dir s) with
    | None => false
    | Some t => m_st_eqb M (t_state t) (s_state s) && dir_eqb (t_dir t) (s_dir s) && cond_eqb (t_cond t) RUNNING
    end
  end.
Fixpoint counted_seek {Sym St} (M : machine Sym St) (fuel cutoff : nat) (c : counted Sym St) : option (counted Sym St) :=
  let s := c_sim c in
  if (s_loops s <? cutoff) && cond_eqb (s_op s) RUNNING then
    match fuel with
    | O => None
    | S fuel =>
      match sim_step zops M no_prover (tt, s) with
      | None => None
      | Some (_, s') =>
        let n := (s_steps s' - s_steps s)%Z in
        counted_seek M fuel cutoff
          (if is_chain M s then Counted s' (c_macro c) (c_chain c + n)%Z else Counted s' (c_macro c + n)%Z (c_chain c))
      end
    end
  else Some c.

Section BlockFinder.
  (** line 153, [chain_factor > 2 * max_chain_factor]: a comparison of two quotients, computed with
      floating point numbers; any function of the two fractions (chain steps, macro steps).  That a quotient is too large for a
      floating point number is not modelled *)
  Variable faster : Z * Z -> Z * Z -> bool.
  Variables (tab : ttable) (block_limit back_limit : nat).

  (** lines 139-146 for one block size: [None]: exception (also a division by zero), [Some None]: the
      simulator has stopped *)
  Definition chain_factor (k loops : nat) : option (option (Z * Z)) :=
    let M := back_machine (block_machine (simple_machine tab) k 0 block_limit) back_limit in
    match counted_seek M loops loops (Counted (sim_init zops M) 0 0) with
    | None => None
    | Some c =>
      if cond_eqb (s_op (c_sim c)) RUNNING then
        if (c_macro c =? 0)%Z then None else Some (Some (c_chain c, c_macro c))
      else Some None
    end.

  (** lines 134-160; the block size that is chosen, [None]: exception or out of fuel *)
  Fixpoint mult_loop (fuel loops opt_size max_block_mult max_block_size : nat) (best : Z * Z) (opt_mult mult : nat)
    : option nat :=
    if (mult <=? opt_mult + max_block_mult) && at_most max_block_size (mult * opt_size) then
      match fuel with
      | O => None
      | S fuel =>
        match chain_factor (mult * opt_size) loops with
        | None => None
        | Some None => Some (mult * opt_size)
        | Some (Some factor) =>
          if faster factor best then mult_loop fuel loops opt_size max_block_mult max_block_size factor mult (S mult)
          else mult_loop fuel loops opt_size max_block_mult max_block_size best opt_mult (S mult)
        end
      end
    else Some (opt_mult * opt_size).

  (** lines 44-160 with both numbers of loops equal, as run_options sets them *)
  Definition block_finder (fuel loops block_mult max_block_mult max_block_size : nat) : option nat :=
    match compression_search (simple_machine tab) loops max_block_size with
    | None => None
    | Some None => Some 1
    | Some (Some opt_size) =>
      if negb (block_mult =? 0) then Some (block_mult * opt_size)
      else if loops =? 0 then Some opt_size
      else mult_loop fuel loops opt_size max_block_mult max_block_size (0, 1)%Z 1 1
    end.
End BlockFinder.

(** ** Macro_Simulator.py *)

(** lines 118-123: the machine that is simulated; lines 131-132: the one given to CTL *)
Definition stack (o : options) (block_size : nat) (backsymbol : bool) : setting :=
  ctl_setting block_size 0 backsymbol (o_block_limit o) (o_back_limit o).

(** lines 162-166; the fuel counts iterations, [max_loops = 0] is no limit *)
Fixpoint sim_loop {Sym St P} (M : machine Sym St)
         (lap : P -> ctape Z Sym -> St -> nat -> option (P * prover_result Z Sym))
         (fuel max_loops tape_limit : nat) (ps : P * sim Z Sym St) : option (P * sim Z Sym St) :=
  if ((max_loops =? 0) || (s_loops (snd ps) <? max_loops)) && cond_eqb (s_op (snd ps)) RUNNING
     && (tape_size (s_tape (snd ps)) <=? tape_limit) then
    match fuel with
    | O => None
    | S fuel => match sim_step zops M lap ps with
                | Some ps => sim_loop M lap fuel max_loops tape_limit ps
                | None => None
                end
    end
  else Some ps.

(** lines 187-240: the status that is written; [None] is an exception of lines 225 and 240 or of an unpacking *)
Definition status_of {Sym St} (M : machine Sym St) (tape_limit : nat) (s : sim Z Sym St) : option status :=
  let r := report_of M s in
  if tape_limit <? tape_size (s_tape s) then Some Unknown
  else
    match r_op r with
    | RUNNING | GAVE_UP => Some Unknown
    | INF_REPEAT =>
      match r_inf r with
      | Some (reason, _) => Some (Infinite (FromSim reason) (report_quasi r))
      | None => None
      end
    | HALT | UNDEFINED =>
      match r_details r with
      | DCell a q :: _ => Some (Halting (r_steps r) (r_nonzeros r) q a)
      | _ => None
      end
    end.

Section Pipeline.
  Variable faster : Z * Z -> Z * Z -> bool.
  (** the order in which Python goes through a set (limited rules) *)
  Variable order : forall A, list A -> list A.
  (** [Variable.num_vars] when the prover is created *)
  Variable next : nat.

  (** lines 141-240.  Without prover the [finally] block raises (line 178). *)
  Definition simulate_machine (tab : ttable) (o : options) (g : setting) (fuel : nat) : option status :=
    with_machine tab g (fun _ _ M =>
      let run {P} (lap : P -> _ -> _ -> nat -> option (P * prover_result Z _)) (p : P) :=
        match sim_loop M lap fuel (o_max_loops o) (o_tape_limit o) (p, sim_init zops M) with
        | Some (_, s) => status_of M (o_tape_limit o) s
        | None => None
        end in
      match o_prover o with
      | NoProver => None
      | Plain => run (log_and_apply M (o_max_configs o) (o_max_reps o)) (prover_init next)
      | Limited => run (log_and_apply_lim M (o_max_configs o) (o_max_reps o) order) (lprover_init next)
      | Recursive => run (log_and_apply_r M (o_max_configs o) (o_max_reps o)) (rprover_init next)
      end).

  (** lines 100-139 *)
  Definition find_and_simulate (tab : ttable) (o : options) (fuel : nat) : option status :=
    let block_size :=
      if o_block_size o =? 0 then
        let bf_loops := if o_max_loops o =? 0 then 100 else o_max_loops o / 100 in
        block_finder faster tab (o_block_limit o) (o_back_limit o) fuel bf_loops
                     (o_block_mult o) (o_max_block_mult o) (o_max_block_size o)
      else Some (o_block_size o) in
    match block_size with
    | None => None
    | Some k =>
      let simulate (_ : unit) := simulate_machine tab o (stack o k (o_backsymbol o)) fuel in
      if o_ctl o then
        let cutoff := if o_max_loops o =? 0 then 1000%Z else (Z.of_nat (o_max_loops o) / 10)%Z in
        match test_CTL tab (stack o k true) CTL2 fuel cutoff with
        | None => None
        | Some (true, _) => Some (Infinite FromCTL QUndecided)
        | Some (false, _) => simulate tt
        end
      else simulate tt
    end.

  (** lines 73-139 for a record without a status.  [None]: exception or out of fuel. *)
  Definition run_options (tab : ttable) (n m : nat) (o : options) (fuel : nat) : option status :=
    let sim (_ : unit) := if o_run_sim o then find_and_simulate tab o fuel else Some Unknown in
    let lin (_ : unit) :=
      if o_lin_steps o =? 0 then sim tt
      else
        match lr_filter (simple_machine tab) fuel (o_lin_steps o) (o_lin_min o) with
        | Some (Some (_, BNone)) => sim tt
        | Some (Some (_, BHalt k score (SRun q) a)) => Some (Halting (Z.of_nat k) (Z.of_nat score) q a)
        | Some (Some (_, BInf b)) => Some (Infinite FromLinRecur b)
        | _ => None
        end in
    if o_reverse o then
      match is_infinite tab n m with
      | None => None
      | Some true => Some (Infinite FromReverse QUndecided)
      | Some false => lin tt
      end
    else lin tt.
End Pipeline.
