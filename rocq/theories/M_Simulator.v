(** * Model of [Code/Macro/Simulator.py], class Simulator

    Options: [compute_steps] is True (the default); printing, statistics other
    than loops and steps, and wall clock time are not modelled.  The prover is a
    parameter: a state type and the function [log_and_apply]; M_Prover supplies
    the real one, [no_prover] is the option [--no-prover]. *)
Require Import ZArith List Lia Bool Arith.
From Verif Require Import Spec_TM M_Turing_Machine M_Tape.
Import ListNotations.

(** io.proto: reason of an infinite verdict (Simulator.py lines 147, 181, 188) *)
Inductive inf_reason := INF_PROOF_SYSTEM | INF_MACRO_STEP | INF_CHAIN_STEP.

(** Python dict from states to counts *)
Definition ndict (N : Type) := list (nat * N).
Fixpoint nd_set {N} (k : nat) (v : N) (d : ndict N) : ndict N :=
  match d with
  | [] => [(k, v)]
  | (k', v') :: d => if Nat.eqb k k' then (k', v) :: d else (k', v') :: nd_set k v d
  end.
Fixpoint nd_get {N} (k : nat) (d : ndict N) : option N :=
  match d with
  | [] => None
  | (k', v) :: d => if Nat.eqb k k' then Some v else nd_get k d
  end.

(** Proof_System.py lines 470-479, ProverResult.  States that recur for ever are
    the keys of [states_last_seen]. *)
Inductive prover_result (N Sym : Type) :=
| PNothing
| PApply (new_tape : ctape N Sym) (num_base_steps : N) (states_last_seen : option (ndict N))
| PInf (recur_states : option (list nat)).
Arguments PNothing {N Sym}. Arguments PApply {N Sym}. Arguments PInf {N Sym}.

(** lines 70-108 *)
Record sim (N Sym St : Type) := Sim {
  s_tape : ctape N Sym;
  s_state : St;
  s_dir : dir;
  s_steps : N;
  s_loops : nat;
  s_op : cond;
  s_details : list detail;
  s_seen : option (ndict N);
  s_inf : option (inf_reason * option (list nat));
  s_rules : nat (* num_rule_moves *) }.
Arguments Sim {N Sym St}.
Arguments s_tape {N Sym St}. Arguments s_state {N Sym St}. Arguments s_dir {N Sym St}.
Arguments s_steps {N Sym St}. Arguments s_loops {N Sym St}. Arguments s_op {N Sym St}.
Arguments s_details {N Sym St}. Arguments s_seen {N Sym St}. Arguments s_inf {N Sym St}.
Arguments s_rules {N Sym St}.

Section Simulator.
  Context {N Sym St : Type} (O : numops N) (M : machine Sym St).

  (** lines 54-108 *)
  Definition sim_init : sim N Sym St :=
    Sim (ct_init (m_init_sym M) R) (m_init_st M) R (n_of O 0) 0 RUNNING [] (Some []) None 0.

  (** lines 193-198 and 207-209: [states_last_seen[state] = base + last_seen] *)
  Definition seen_update (seen : option (ndict N)) (base : N) (new : dict) : option (ndict N) :=
    match seen with
    | None => None
    | Some d => Some (fold_left (fun d kv =>
                  nd_set (fst kv) (n_add O base (n_of O (Z.of_nat (snd kv)))) d) new d)
    end.

  (** lines 171-215: one macro or chain move ([num_loops] already incremented) *)
  Definition sim_move (s : sim N Sym St) : option (sim N Sym St) :=
    match ct_top (s_tape s) with
    | None => None
    | Some top =>
      match m_trans M (k_sym top) (s_state s) (s_dir s) with
      | None => None
      | Some t =>
        if cond_eqb (t_cond t) INF_REPEAT then
          Some (Sim (s_tape s) (s_state s) (s_dir s) (s_steps s) (s_loops s)
                    INF_REPEAT (t_details t) (s_seen s)
                    (Some (INF_MACRO_STEP, Some (map fst (t_seen t)))) (s_rules s))
        else if m_st_eqb M (t_state t) (s_state s) && dir_eqb (t_dir t) (s_dir s)
                && cond_eqb (t_cond t) RUNNING then
          match apply_chain_move O (m_sym_eqb M) (s_tape s) (t_sym t) with
          | None => None
          | Some (tape, None) =>
            Some (Sim tape (s_state s) (s_dir s) (s_steps s) (s_loops s)
                      INF_REPEAT (t_details t) (s_seen s)
                      (Some (INF_CHAIN_STEP, Some (map fst (t_seen t)))) (s_rules s))
          | Some (tape, Some num_reps) =>
            let base := n_add O (s_steps s)
                          (n_mul O (Z.of_nat (t_steps t)) (n_add O num_reps (n_of O (-1)))) in
            Some (Sim tape (s_state s) (s_dir s)
                      (n_add O (s_steps s) (n_mul O (Z.of_nat (t_steps t)) num_reps))
                      (s_loops s) (t_cond t) (t_details t)
                      (seen_update (s_seen s) base (t_seen t)) (s_inf s) (s_rules s))
          end
        else if negb (cond_eqb (t_cond t) GAVE_UP) then
          match apply_single_move O (m_sym_eqb M) (s_tape s) (t_sym t) (t_dir t) with
          | None => None
          | Some tape =>
            Some (Sim tape (t_state t) (t_dir t)
                      (n_add O (s_steps s) (n_of O (Z.of_nat (t_steps t))))
                      (s_loops s) (t_cond t) (t_details t)
                      (seen_update (s_seen s) (s_steps s) (t_seen t)) (s_inf s) (s_rules s))
          end
        else
          Some (Sim (s_tape s) (s_state s) (s_dir s) (s_steps s) (s_loops s)
                    (t_cond t) (t_details t) (s_seen s) (s_inf s) (s_rules s))
      end
    end.

  Definition loop_inc (s : sim N Sym St) : sim N Sym St :=
    Sim (s_tape s) (s_state s) (s_dir s) (s_steps s) (S (s_loops s)) (s_op s)
        (s_details s) (s_seen s) (s_inf s) (s_rules s).

  (** lines 161-166: [self.step_num + prover_last_seen] *)
  Definition seen_merge (seen new : option (ndict N)) (base : N) : option (ndict N) :=
    match seen, new with
    | Some d, Some ((_ :: _) as new) =>
      Some (fold_left (fun d kv => nd_set (fst kv) (n_add O base (snd kv)) d) new d)
    | _, _ => None
    end.

  (** line 131: an [Algebraic_Expression] test that always succeeds for the
      base simulator is omitted.  Lines 129-219, with a prover. *)
  Section Prover.
    Context {P : Type}.
    Variable log_and_apply : P -> ctape N Sym -> St -> nat -> option (P * prover_result N Sym).

    Definition sim_step (ps : P * sim N Sym St) : option (P * sim N Sym St) :=
      let '(p, s) := ps in
      if negb (cond_eqb (s_op s) RUNNING) then Some (p, s)
      else
        let s := loop_inc s in
        match log_and_apply p (s_tape s) (s_state s) (s_loops s - 1) with
        | None => None
        | Some (p, PNothing) =>
          match sim_move s with Some s => Some (p, s) | None => None end
        | Some (p, PInf states) =>
          Some (p, Sim (s_tape s) (s_state s) (s_dir s) (s_steps s) (s_loops s)
                       INF_REPEAT (s_details s) (s_seen s)
                       (Some (INF_PROOF_SYSTEM, states)) (s_rules s))
        | Some (p, PApply tape num_base_steps seen) =>
          Some (p, Sim tape (s_state s) (s_dir s) (n_add O (s_steps s) num_base_steps)
                       (s_loops s) (s_op s) (s_details s)
                       (seen_merge (s_seen s) seen (s_steps s)) (s_inf s) (S (s_rules s)))
        end.

    (** [n] calls of [step] *)
    Fixpoint sim_iter (n : nat) (ps : P * sim N Sym St) : option (P * sim N Sym St) :=
      match n with
      | 0%nat => Some ps
      | S n => match sim_step ps with Some ps => sim_iter n ps | None => None end
      end.

    (** lines 123-125; every iteration adds one to [num_loops] *)
    Fixpoint loop_seek_loop (fuel cutoff : nat) (ps : P * sim N Sym St)
      : option (P * sim N Sym St) :=
      if (Nat.ltb (s_loops (snd ps)) cutoff && cond_eqb (s_op (snd ps)) RUNNING)%bool then
        match fuel with
        | 0%nat => None
        | S fuel => match sim_step ps with
                    | Some ps => loop_seek_loop fuel cutoff ps
                    | None => None
                    end
        end
      else Some ps.
    Definition loop_seek (cutoff : nat) (ps : P * sim N Sym St) :=
      loop_seek_loop (cutoff - s_loops (snd ps)) cutoff ps.
  End Prover.

  (** [--no-prover]; lines 141 and 93-94 *)
  Definition no_prover (p : unit) (_ : ctape N Sym) (_ : St) (_ : nat)
    : option (unit * prover_result N Sym) := Some (p, PNothing).

  (** lines 221-224 *)
  Definition sim_nonzeros (s : sim N Sym St) : N :=
    ct_nonzeros O (m_eval_sym M) (m_eval_st M (s_state s)) (s_tape s).
End Simulator.

(** lines 114-117 for int step counts; every running iteration adds at least one
    step, so the fuel [cutoff - step_num] suffices *)
Fixpoint seek_loop {Sym St P} (M : machine Sym St)
         (lap : P -> ctape Z Sym -> St -> nat -> option (P * prover_result Z Sym))
         (fuel : nat) (cutoff : Z) (ps : P * sim Z Sym St) : option (P * sim Z Sym St) :=
  if (Z.ltb (s_steps (snd ps)) cutoff && cond_eqb (s_op (snd ps)) RUNNING)%bool then
    match fuel with
    | 0%nat => None
    | S fuel => match sim_step zops M lap ps with
                | Some ps => seek_loop M lap fuel cutoff ps
                | None => None
                end
    end
  else Some ps.
Definition sim_seek {Sym St P} (M : machine Sym St)
         (lap : P -> ctape Z Sym -> St -> nat -> option (P * prover_result Z Sym))
         (cutoff : Z) (ps : P * sim Z Sym St) :=
  seek_loop M lap (Z.to_nat (cutoff - s_steps (snd ps))) cutoff ps.
