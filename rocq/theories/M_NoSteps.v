(** * The simulator and the rule prover with [--no-steps] ([compute_steps] False)

    [Code/Macro/Simulator.py], [Code/Macro/Proof_System.py] and
    [Code/Macro_Simulator.py] lines 141-240, as in M_Simulator, M_Prover and M_Pipeline, with the
    branches that are taken when no steps are counted: [step_num] stays 0 (in a proof: the
    expression 0), [states_last_seen] is None, a rule has no step count and applying it makes no new
    variable.  Also the simulation with --exp-linear-rules but not --recursive: Macro_Simulator.py
    lines 156-157 switch the counting off, and no Linear_Rule is ever proven (see make_gen in
    M_Prover).  Limited and recursive rules are not modelled here. *)
Require Import ZArith List Lia Bool Arith QArith.
From Verif Require Import Spec_TM M_Turing_Machine M_Expr M_Tape M_Simulator M_Settings M_Prover M_LinRecur M_Pipeline.
Import ListNotations.
Open Scope Z_scope.

(** ** Simulator.py *)
Section Simulator.
  Context {N Sym St : Type} (O : numops N) (M : machine Sym St).

  (** lines 54-108 *)
  Definition nsim_init : sim N Sym St :=
    Sim (ct_init (m_init_sym M) R) (m_init_st M) R (n_of O 0) 0 RUNNING [] None None 0.

  (** lines 171-215 *)
  Definition nsim_move (s : sim N Sym St) : option (sim N Sym St) :=
    match ct_top (s_tape s) with
    | None => None
    | Some top =>
      match m_trans M (k_sym top) (s_state s) (s_dir s) with
      | None => None
      | Some t =>
        if cond_eqb (t_cond t) INF_REPEAT then
          Some (Sim (s_tape s) (s_state s) (s_dir s) (s_steps s) (s_loops s)
                    INF_REPEAT (t_details t) (s_seen s)
                    (Some (INF_MACRO_STEP, Some (map fst (t_seen t)))) (s_rules s))
        else if m_st_eqb M (t_state t) (s_state s) && dir_eqb (t_dir t) (s_dir s)
                && cond_eqb (t_cond t) RUNNING then
          match apply_chain_move O (m_sym_eqb M) (s_tape s) (t_sym t) with
          | None => None
          | Some (tape, None) =>
            Some (Sim tape (s_state s) (s_dir s) (s_steps s) (s_loops s)
                      INF_REPEAT (t_details t) (s_seen s)
                      (Some (INF_CHAIN_STEP, Some (map fst (t_seen t)))) (s_rules s))
          | Some (tape, Some num_reps) =>
            Some (Sim tape (s_state s) (s_dir s) (s_steps s)
                      (s_loops s) (t_cond t) (t_details t) (s_seen s) (s_inf s) (s_rules s))
          end
        else if negb (cond_eqb (t_cond t) GAVE_UP) then
          match apply_single_move O (m_sym_eqb M) (s_tape s) (t_sym t) (t_dir t) with
          | None => None
          | Some tape =>
            Some (Sim tape (t_state t) (t_dir t) (s_steps s)
                      (s_loops s) (t_cond t) (t_details t) (s_seen s) (s_inf s) (s_rules s))
          end
        else
          Some (Sim (s_tape s) (s_state s) (s_dir s) (s_steps s) (s_loops s)
                    (t_cond t) (t_details t) (s_seen s) (s_inf s) (s_rules s))
      end
    end.

  Section Prover.
    Context {P : Type}.
    Variable log_and_apply : P -> ctape N Sym -> St -> nat -> option (P * prover_result N Sym).

    (** lines 129-219 *)
    Definition nsim_step (ps : P * sim N Sym St) : option (P * sim N Sym St) :=
      let '(p, s) := ps in
      if negb (cond_eqb (s_op s) RUNNING) then Some (p, s)
      else
        let s := loop_inc s in
        match log_and_apply p (s_tape s) (s_state s) (s_loops s - 1)%nat with
        | None => None
        | Some (p, PNothing) =>
          match nsim_move s with Some s => Some (p, s) | None => None end
        | Some (p, PInf states) =>
          Some (p, Sim (s_tape s) (s_state s) (s_dir s) (s_steps s) (s_loops s)
                       INF_REPEAT (s_details s) (s_seen s)
                       (Some (INF_PROOF_SYSTEM, states)) (s_rules s))
        | Some (p, PApply tape _ _) =>
          Some (p, Sim tape (s_state s) (s_dir s) (s_steps s)
                       (s_loops s) (s_op s) (s_details s) (s_seen s) (s_inf s) (S (s_rules s)))
        end.

    (** [n] calls of [step] *)
    Fixpoint nsim_iter (n : nat) (ps : P * sim N Sym St) : option (P * sim N Sym St) :=
      match n with
      | 0%nat => Some ps
      | S n => match nsim_step ps with Some ps => nsim_iter n ps | None => None end
      end.
    (** lines 123-125 *)
    Fixpoint nloop_seek (fuel cutoff : nat) (ps : P * sim N Sym St) : option (P * sim N Sym St) :=
      if (Nat.ltb (s_loops (snd ps)) cutoff && cond_eqb (s_op (snd ps)) RUNNING)%bool then
        match fuel with
        | 0%nat => None
        | S fuel => match nsim_step ps with
                    | Some ps => nloop_seek fuel cutoff ps
                    | None => None
                    end
        end
      else Some ps.
  End Prover.
End Simulator.

(** lines 114-117 of Simulator.py; [None]: exception or out of fuel *)
Fixpoint nseek {Sym St P} (M : machine Sym St)
         (lap : P -> ctape Z Sym -> St -> nat -> option (P * prover_result Z Sym))
         (fuel : nat) (cutoff : Z) (ps : P * sim Z Sym St) : option (P * sim Z Sym St) :=
  if (Z.ltb (s_steps (snd ps)) cutoff && cond_eqb (s_op (snd ps)) RUNNING)%bool then
    match fuel with
    | 0%nat => None
    | S fuel => match nsim_step zops M lap ps with
                | Some ps => nseek M lap fuel cutoff ps
                | None => None
                end
    end
  else Some ps.

(** ** Proof_System.py *)

(** Diff_Rule and General_Rule without num_steps and states_last_seen *)
Inductive nrule :=
| NDiff (init diff : list (option val))
| NGen (vars : list (option nat)) (mins : list (option Q)) (result : list (option val)) (infinite : bool).

Section Prover.
  Context {Sym St : Type} (M : machine Sym St) (max_prover_configs max_num_reps : nat).

  (** lines 481-516, and the global counter [Variable.num_vars] *)
  Record nprover := NProver {
    np_rules : list (key (Sym:=Sym) (St:=St) * nrule);
    np_past : list (key (Sym:=Sym) (St:=St) * past_config);
    np_next : nat }.
  Definition nprover_init (next : nat) : nprover := NProver [] [] next.

  (** lines 776-832 *)
  Fixpoint ngen_loop (delta : nat) (s : sim val Sym St) (m : ndict Q) : pr (sim val Sym St * ndict Q) :=
    match delta with
    | 0%nat => POk (s, m)
    | S delta =>
      match ct_top (s_tape s) with
      | None => PExn
      | Some b =>
        if num_le0 (k_num b) then PFail
        else match nsim_move vops M (loop_inc s) with
             | None => PExn
             | Some s =>
               if negb (cond_eqb (s_op s) RUNNING) then PFail
               else match update_min (nums (s_tape s)) m with
                    | PExn => PExn
                    | PFail => PFail
                    | POk m => ngen_loop delta s m
                    end
             end
      end
    end.

  (** lines 940-1013, with lines 970-974 and 889-895 on their else branches *)
  Definition nmake_diff (inits diffs : list (option val)) (m : ndict Q) : option nrule :=
    match map_opt (tighten m) inits with
    | None => None
    | Some l =>
      let replaces := concat (map snd l) in
      match map_opt (inf_opt (fun v => v_subst v replaces)) diffs with
      | Some diffs => Some (NDiff (map fst l) diffs)
      | None => None
      end
    end.
  (** lines 863-935 *)
  Definition nmake_gen (inits finals : list (option val)) (m : ndict Q) : option nrule :=
    match map_opt (gen_entry m) inits with
    | None => None
    | Some l =>
      let vars := map (fun e => fst (fst e)) l in
      let mins := map (fun e => snd (fst e)) l in
      let assignment := concat (map snd l) in
      match map_opt (inf_opt (fun v => v_subst v assignment)) finals with
      | Some result =>
        if forallb linear_shape (combine vars result) then None
        else if forallb (vars_valid vars) result then
          Some (NGen vars mins result (forallb gen_infinite (combine vars result)))
        else None
      | None => None
      end
    end.

  Definition ngen_sim0 (t : ctape Z Sym) (q : St) (inits : list (option val)) : sim val Sym St :=
    Sim (mk (shape t) inits) q (ct_dir t) (VE (Expr [] 0%Q)) 0 RUNNING [] None None 0.

  (** lines 712-1015 *)
  Definition nprove_rule (next : nat) (t : ctape Z Sym) (q : St) (delta : nat) : option (nat * option nrule) :=
    match gen_nums next (nums t) with
    | None => None
    | Some (next, inits, m) =>
      match ngen_loop delta (ngen_sim0 t q inits) m with
      | PExn => None
      | PFail => Some (next, None)
      | POk (s, m) =>
        if negb (key_eqb M (strip_config v_is1 (s_state s) (s_tape s)) (strip_config z_is1 q t))
        then Some (next, None)
        else
          let finals := nums (s_tape s) in
          let diffs := map diff_num (combine finals inits) in
          match (if forallb num_scalar diffs then nmake_diff inits diffs m else nmake_gen inits finals m) with
          | None => None
          | Some r => Some (next, Some r)
          end
      end
    end.

  (** lines 1086-1160 without the dicts, which are used for the steps only *)
  Fixpoint ndiff_scan (i : nat) (bs : list (option val * option val * option Z)) (lim : limit) : pr limit :=
    match bs with
    | [] => POk lim
    | (Some (VE e), d, n) :: bs =>
      match variable_restricted e, q_int (e_const e), n with
      | Some x, Some c, Some n =>
        if (n - c <? 0) then PFail
        else match d with
             | Some d =>
               match v_int d with
               | None => PExn
               | Some dz =>
                 let lim := if dz <? 0 then
                     let '(reps, final) := subtract_max_reps c (- dz) n in
                     match lim with
                     | None => Some (reps, i, final)
                     | Some (best, _, _) => if reps <? best then Some (reps, i, final) else lim
                     end
                   else lim in
                 ndiff_scan (S i) bs lim
               end
             | None => PExn
             end
      | _, _, _ => PExn
      end
    | _ :: bs => ndiff_scan (S i) bs lim
    end.

  (** lines 1070-1230: diff_steps is 0 (line 1201) *)
  Definition napply_diff_rule (inits diffs : list (option val)) (t : ctape Z Sym)
    : option (option (prover_result Z Sym)) :=
    match ndiff_scan 0 (combine (combine inits diffs) (nums t)) None with
    | PExn => None
    | PFail => Some None
    | POk None => Some (Some (PInf None))
    | POk (Some (reps, li, final)) =>
      if reps <=? 0 then Some None
      else
        match diff_nums 0 reps li final (combine diffs (nums t)) with
        | Some ns => Some (Some (PApply (drop_zeros (mk (shape t) ns)) 0 None))
        | None => None
        end
    end.

  (** lines 1361-1387; the boolean is [success] *)
  Inductive ngen_result := NInf | NDone (cur : list (option Z)) (success : bool).
  Fixpoint ngen_reps (fuel : nat) (vars : list (option nat)) (mins : list (option Q))
           (result : list (option val)) (cur : list (option Z)) (success : bool) : option ngen_result :=
    match fits_min (combine (combine vars mins) cur) [] with
    | None => None
    | Some None => Some (NDone cur success)
    | Some (Some asg) =>
      match fuel with
      | 0%nat => Some (NDone cur success)
      | S fuel =>
        match map_opt (inf_opt (fun v => match v_subst v asg with Some w => v_int w | None => None end)) result with
        | Some next => if znums_eqb next cur then Some NInf else ngen_reps fuel vars mins result next true
        | None => None
        end
      end
    end.
  (** lines 1331-1421 *)
  Definition napply_general_rule (vars : list (option nat)) (mins : list (option Q))
             (result : list (option val)) (infinite : bool) (t : ctape Z Sym)
    : option (option (prover_result Z Sym)) :=
    match max_num_reps with
    | 0%nat => None
    | _ =>
      match fits_min (combine (combine vars mins) (nums t)) [] with
      | None => None
      | Some fits =>
        if infinite && match fits with Some _ => true | None => false end
        then Some (Some (PInf None))
        else
          match ngen_reps max_num_reps vars mins result (nums t) false with
          | None => None
          | Some NInf => Some (Some (PInf None))
          | Some (NDone _ false) => Some None
          | Some (NDone cur true) => Some (Some (PApply (drop_zeros (mk (shape t) cur)) 0 None))
          end
      end
    end.
  (** lines 1017-1036 *)
  Definition napply_rule (r : nrule) (t : ctape Z Sym) : option (option (prover_result Z Sym)) :=
    match r with
    | NDiff inits diffs => napply_diff_rule inits diffs t
    | NGen vars mins result infinite => napply_general_rule vars mins result infinite t
    end.

  (** lines 683-710 *)
  Definition nadd_rule (p : nprover) (k : key) (r : nrule) : nprover :=
    let saved := match kget M k (np_past p) with Some s => s | None => Past None None end in
    NProver (kset M k r (np_rules p)) [(k, Past None (last_delta saved))] (np_next p).

  (** lines 572-640 *)
  Definition nlog_and_apply (p : nprover) (t : ctape Z Sym) (q : St) (loop : nat)
    : option (nprover * prover_result Z Sym) :=
    let k := strip_config z_is1 q t in
    match kget M k (np_rules p) with
    | Some r =>
      match napply_rule r t with
      | None => None
      | Some (Some result) => Some (NProver (np_rules p) [] (np_next p), result)
      | Some None => Some (p, PNothing)
      end
    | None =>
      let pc := match kget M k (np_past p) with Some c => c | None => Past None None end in
      let '(prove, pc') := log_config pc loop in
      let p := NProver (np_rules p) (kset M k pc' (np_past p)) (np_next p) in
      if prove then
        let delta := match last_loop pc' with Some l => (loop - l)%nat | None => 0%nat end in
        match nprove_rule (np_next p) t q delta with
        | None => None
        | Some (next, None) => Some (NProver (np_rules p) (np_past p) next, PNothing)
        | Some (next, Some r) =>
          let p := nadd_rule (NProver (np_rules p) (np_past p) next) k r in
          match napply_rule r t with
          | None => None
          | Some result => Some (p, match result with Some x => x | None => PNothing end)
          end
        end
      else if Nat.ltb max_prover_configs (length (np_past p)) then
        Some (NProver (np_rules p) [] (np_next p), PNothing)
      else Some (p, PNothing)
    end.
End Prover.

(** a fresh simulator with --no-steps, driven by calls of step or by loop_seek; for seek see
    [nseek] *)
Definition ndrive {Sym St P} (M : machine Sym St)
           (lap : P -> ctape Z Sym -> St -> nat -> option (P * prover_result Z Sym))
           (d : driver) (ps : P * sim Z Sym St) : option (P * sim Z Sym St) :=
  match d with
  | Steps n => nsim_iter zops M lap n ps
  | LoopSeek n => nloop_seek zops M lap (n - s_loops (snd ps))%nat n ps
  | Seek z => nseek M lap (Z.to_nat (z - s_steps (snd ps))) z ps
  end.
Definition run_no_steps (tab : ttable) (g : setting) (mc mr next : nat) (d : driver) : option report :=
  with_machine tab g (fun _ _ M =>
    match ndrive M (nlog_and_apply M mc mr) d (nprover_init next, nsim_init zops M) with
    | Some (_, s) => Some (report_of M s)
    | None => None
    end).

(** ** Macro_Simulator.py lines 141-240 with --no-steps (or --exp-linear-rules) *)
Fixpoint nsim_loop {Sym St P} (M : machine Sym St)
         (lap : P -> ctape Z Sym -> St -> nat -> option (P * prover_result Z Sym))
         (fuel max_loops tape_limit : nat) (ps : P * sim Z Sym St) : option (P * sim Z Sym St) :=
  if (Nat.eqb max_loops 0 || Nat.ltb (s_loops (snd ps)) max_loops) && cond_eqb (s_op (snd ps)) RUNNING
     && Nat.leb (tape_size (s_tape (snd ps))) tape_limit then
    match fuel with
    | 0%nat => None
    | S fuel => match nsim_step zops M lap ps with
                | Some ps => nsim_loop M lap fuel max_loops tape_limit ps
                | None => None
                end
    end
  else Some ps.
Definition simulate_no_steps (tab : ttable) (g : setting) (mc mr next max_loops tape_limit fuel : nat) : option status :=
  with_machine tab g (fun _ _ M =>
    match nsim_loop M (nlog_and_apply M mc mr) fuel max_loops tape_limit (nprover_init next, nsim_init zops M) with
    | Some (_, s) => status_of M tape_limit s
    | None => None
    end).
