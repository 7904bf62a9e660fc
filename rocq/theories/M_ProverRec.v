(** * Model of [Code/Macro/Proof_System.py] with [--recursive]

    As in M_Prover but [recursive] is True (lines 35-36): inside a proof the
    simulator may apply the rules proven so far, and a rule proven in this way is
    a meta rule.  [compute_steps] is True; [limited_rules], [exp_linear_rules] and
    [exp_meta_linear_rules] are False.

    Rules are applied to tapes whose counts are Python ints or Expressions.  The
    functions below are written for these tapes, and the tapes of the base
    simulator (int counts) are converted before and after. *)
Require Import ZArith List Lia Bool Arith QArith Qround.
From Verif Require Import Spec_TM M_Turing_Machine M_Expr M_Tape M_Simulator M_Settings M_Prover.
Import ListNotations.
Open Scope Z_scope.

Definition v_is_expr (v : val) : bool := match v with VE _ => true | VS _ => false end.
(** [==] between numbers and Expressions (Algebraic_Expression.py lines 257-268) *)
Definition v_eqb (a b : val) : bool :=
  match a, b with
  | VE e, _ => e_eqb e b
  | VS p, VS q => Qeq_bool p q
  | VS p, VE e => e_eqb e (VS p)
  end.
(** lines 1213-1215 *)
Definition v_simp (v : val) : val :=
  match v with VE e => if e_is_const e then VS (e_const e) else v | _ => v end.

(** Rule_Func.py lines 34-39 for [const = dec]; [divmod] of an Expression is
    defined by 1 only (Algebraic_Expression.py lines 239-242) *)
Definition max_reps_v (min : Q) (dec : Z) (start : val) : option (val * val) :=
  let min_after := (min - inject_Z dec)%Q in
  match v_sub start (VS min_after) with
  | VS q => match q_int q, q_int min_after with
            | Some z, Some a => Some (VS (inject_Z (z / dec)), VS (inject_Z (z mod dec + a)))
            | _, _ => None
            end
  | VE e => if dec =? 1 then Some (VE e, VS min_after) else None
  end.

(** a limit: repetitions, position of the limiting block, its final count *)
Definition vlimit := option (val * nat * val).

(** lines 1099-1156: the limit after a block with minimum [c], negative difference
    [dz] and count [n] ([iv] is [n - c]); [PFail] is [return False] *)
Definition scan_limit (i : nat) (c : Q) (dz : Z) (n iv : val) (lim : vlimit) : pr vlimit :=
  match lim with
  | None =>
    if v_is_expr iv && negb (dz =? -1) then PFail
    else match max_reps_v c (- dz) n with
         | None => PExn
         | Some (r, f) => POk (Some (r, i, f))
         end
  | Some (best, _, _) =>
    match iv, best with
    | VS _, VS b =>
      match max_reps_v c (- dz) n with
      | Some (VS r, f) => POk (if qlt r b then Some (VS r, i, f) else lim)
      | _ => PExn
      end
    | _, _ => PFail
    end
  end.

(** lines 1083-1156; the values are the dicts [init_value] and [delta_value], the
    boolean is [large_delta] *)
Fixpoint diff_scan_v (i : nat) (bs : list (option val * option val * option val)) (lim : vlimit)
         (vals : list (nat * (val * Z))) (large : bool)
  : pr (vlimit * list (nat * (val * Z)) * bool) :=
  match bs with
  | [] => POk (lim, vals, large)
  | (Some (VE e), d, n) :: bs =>
    match variable_restricted e, n with
    | Some x, Some n =>
      let iv := v_sub n (VS (e_const e)) in
      if negb (always_ge iv (VS 0%Q)) then PFail
      else match d with
           | Some d =>
             match v_int d with
             | None => PExn
             | Some dz =>
               let vals := vals ++ [(x, (iv, dz))] in
               if dz <? 0 then
                 match scan_limit i (e_const e) dz n iv lim with
                 | PExn => PExn
                 | PFail => PFail
                 | POk lim => diff_scan_v (S i) bs lim vals (large || negb (dz =? -1))
                 end
               else diff_scan_v (S i) bs lim vals large
             end
           | None => PExn
           end
    | _, _ => PExn
    end
  | _ :: bs => diff_scan_v (S i) bs lim vals large
  end.

(** lines 1204-1215 *)
Fixpoint diff_nums_v (i : nat) (reps : val) (li : nat) (final : val)
         (bs : list (option val * option val)) : option (list (option val)) :=
  match bs with
  | [] => Some []
  | (d, n) :: bs =>
    match diff_nums_v (S i) reps li final bs with
    | None => None
    | Some ns =>
      match n with
      | None => Some (None :: ns)
      | Some n =>
        if Nat.eqb i li then Some (Some (v_simp final) :: ns)
        else match d with
             | Some d => Some (Some (v_simp (v_add n (v_mul reps d))) :: ns)
             | None => None
             end
      end
    end
  end.

(** lines 1424-1434; [Some None]: below the minimum *)
Fixpoint fits_min_v (bs : list (option nat * option Q * option val)) (asg : subs) : option (option subs) :=
  match bs with
  | [] => Some (Some asg)
  | (Some x, Some m, Some v) :: bs =>
    if always_ge v (VS m) then fits_min_v bs (asg ++ [(x, v)]) else Some None
  | (Some _, _, _) :: _ => None
  | (None, _, _) :: bs => fits_min_v bs asg
  end.

(** list equality *)
Fixpoint vnums_eqb (a b : list (option val)) : bool :=
  match a, b with
  | [], [] => true
  | Some x :: a, Some y :: b => v_eqb x y && vnums_eqb a b
  | None :: a, None :: b => vnums_eqb a b
  | _, _ => false
  end.

Inductive vgen_result := VGInf | VGDone (cur : list (option val)) (steps : val) (last : option subs).

(** lines 1361-1387; [fuel] counts the remaining repetitions *)
Fixpoint gen_reps_v (fuel : nat) (vars : list (option nat)) (mins : list (option Q))
         (result : list (option val)) (steps : val) (cur : list (option val)) (acc : val)
         (last : option subs) : option vgen_result :=
  match fits_min_v (combine (combine vars mins) cur) [] with
  | None => None
  | Some None => Some (VGDone cur acc last)
  | Some (Some asg) =>
    match fuel with
    | 0%nat => Some (VGDone cur acc last)
    | S fuel =>
      match v_subst steps asg, map_opt (inf_opt (fun v => v_subst v asg)) result with
      | Some n, Some next =>
        if vnums_eqb next cur then Some VGInf
        else gen_reps_v fuel vars mins result steps next (v_add acc n) (Some asg)
      | _, _ => None
      end
    end
  end.

(** lines 101-118 with Rule_Func.py lines 64-88: the minimum of a block after
    [Linear_Rule.try_gen]; a coefficient that is not positive fails an assertion *)
Definition lin_min (vmr : option nat * option Q * option val) : option (option Q) :=
  match vmr with
  | (Some _, Some m, Some (VE e)) =>
    match as_strictly_linear e with
    | Some (_, coef, const) =>
      if Qeq_bool coef 1 then Some (Some m)
      else if qlt 0 coef then
        if Qle_bool 0 const then Some (Some m)
        else
          let c := (inject_Z (Qfloor ((- const - 1) / (coef - 1))) + 1)%Q in
          Some (Some (if Qle_bool c m then m else c))
      else None
    | None => None
    end
  | (_, m, _) => Some m
  end.

(** a rule, and whether it was proven using other rules (line 942; the code
    records [is_meta_rule] only for a Diff_Rule) *)
Record rrule := RRule { rr_rule : rule; rr_meta : bool }.

Section ProverRec.
  Context {Sym St : Type} (M : machine Sym St) (max_prover_configs max_num_reps : nat).

  (** lines 1216 and 1395-1396 *)
  Definition drop_zeros_v (t : ctape val Sym) : ctape val Sym :=
    let f := filter (fun b => match k_num b with Some v => negb (n_eq0 vops v) | None => true end) in
    CTape (ct_dir t) (f (ct_l t)) (f (ct_r t)).

  (** lines 1070-1233; [Some None]: the rule does not apply; the boolean is
      [large_delta].  Line 1170: comparing an Expression with 0 is a TypeError. *)
  Definition apply_diff_rule_v (next : nat) (inits diffs : list (option val)) (steps : val)
             (seen : ndict val) (t : ctape val Sym)
    : option (nat * option (prover_result val Sym * bool)) :=
    match diff_scan_v 0 (combine (combine inits diffs) (nums t)) None [] false with
    | PExn => None
    | PFail => Some (next, None)
    | POk (None, _, large) => Some (next, Some (PInf (recur_states seen), large))
    | POk (Some (reps, li, final), vals, large) =>
      if match reps with VE e => e_is_const e | VS _ => false end then None
      else if match reps with VS q => Qle_bool q 0 | VE _ => false end then Some (next, None)
      else
        let k := next in
        let sub := map (fun xv => (fst xv, v_add (fst (snd xv))
                                 (v_mul (VS (inject_Z (snd (snd xv)))) (VE (var_expr k))))) vals in
        let last := map (fun xv => (fst xv, v_add (fst (snd xv))
                                 (v_mul (VS (inject_Z (snd (snd xv)))) (v_sub reps (VS 1%Q))))) vals in
        match v_subst steps sub with
        | None => None
        | Some this =>
          match series_sum this k reps with
          | None => None
          | Some total =>
            match seen_map_opt (fun ls => v_subst (v_sub total (v_sub steps ls)) last) seen,
                  diff_nums_v 0 reps li final (combine diffs (nums t)) with
            | Some seen, Some ns =>
              Some (S next, Some (PApply (drop_zeros_v (mk (shape t) ns)) total (Some seen), large))
            | _, _ => None
            end
          end
        end
    end.

  (** lines 1331-1421 *)
  Definition apply_general_rule_v (vars : list (option nat)) (mins : list (option Q))
             (result : list (option val)) (infinite : bool) (steps : val) (seen : ndict val)
             (t : ctape val Sym) : option (option (prover_result val Sym * bool)) :=
    match max_num_reps with
    | 0%nat => None
    | _ =>
      match fits_min_v (combine (combine vars mins) (nums t)) [] with
      | None => None
      | Some fits =>
        if infinite && match fits with Some _ => true | None => false end
        then Some (Some (PInf (recur_states seen), true))
        else
          match gen_reps_v max_num_reps vars mins result steps (nums t) (VS 0%Q) None with
          | None => None
          | Some VGInf => Some (Some (PInf (recur_states seen), true))
          | Some (VGDone _ _ None) => Some None
          | Some (VGDone cur acc (Some last)) =>
            let tape := drop_zeros_v (mk (shape t) cur) in
            match seen with
            | [] => Some (Some (PApply tape acc None, true))
            | _ =>
              match seen_map_opt (fun ls => v_subst (v_sub acc (v_sub steps ls)) last) seen with
              | Some d => Some (Some (PApply tape acc (Some d), true))
              | None => None
              end
            end
          end
      end
    end.

  (** lines 1017-1036 and 1238-1241 *)
  Definition apply_rule_v (next : nat) (r : rule) (t : ctape val Sym)
    : option (nat * option (prover_result val Sym * bool)) :=
    match r with
    | RDiff inits diffs steps seen => apply_diff_rule_v next inits diffs steps seen t
    | RGen vars mins result infinite steps seen =>
      option_map (pair next) (apply_general_rule_v vars mins result infinite steps seen t)
    end.

  (** lines 740-746 with 572-590 and 617-640: [log_and_apply] of the frozen copy of the
      prover used by the generalised simulator; it only applies rules.  Its state is
      the global counter of variables. *)
  Definition frozen_apply (rules : list (key (Sym := Sym) (St := St) * rrule))
             (next : nat) (t : ctape val Sym) (q : St) (loop : nat)
    : option (nat * prover_result val Sym) :=
    match kget M (strip_config v_is1 q t) rules with
    | None => Some (next, PNothing)
    | Some r =>
      match apply_rule_v next (rr_rule r) t with
      | None => None
      | Some (next, Some (result, _)) => Some (next, result)
      | Some (next, None) => Some (next, PNothing)
      end
    end.

  (** lines 776-832 *)
  Fixpoint gen_loop_v (rules : list (key * rrule)) (delta : nat) (next : nat) (s : sim val Sym St)
           (m : ndict Q) : pr (nat * sim val Sym St * ndict Q) :=
    match delta with
    | 0%nat => POk (next, s, m)
    | S delta =>
      match ct_top (s_tape s) with
      | None => PExn
      | Some b =>
        if num_le0 (k_num b) then PFail
        else match sim_step vops M (frozen_apply rules) (next, s) with
             | None => PExn
             | Some (next, s) =>
               if negb (cond_eqb (s_op s) RUNNING) then PFail
               else match update_min (nums (s_tape s)) m with
                    | PExn => PExn
                    | PFail => PFail
                    | POk m => gen_loop_v rules delta next s m
                    end
             end
      end
    end.

  (** lines 863-935, with [Linear_Rule.try_gen]; [Exponential_Rule.try_gen] accepts
      no more than [Linear_Rule.try_gen] when no count is an ExpInt *)
  Definition make_gen_v (inits finals : list (option val)) (m : ndict Q) (s : sim val Sym St)
             (seen : ndict val) : option rule :=
    match map_opt (gen_entry m) inits with
    | None => None
    | Some l =>
      let vars := map (fun e => fst (fst e)) l in
      let mins := map (fun e => snd (fst e)) l in
      let assignment := concat (map snd l) in
      match map_opt (inf_opt (fun v => v_subst v assignment)) finals,
            v_subst (s_steps s) assignment,
            seen_map_opt (fun v => v_subst v assignment) seen with
      | Some result, Some steps, Some seen =>
        match (if forallb linear_shape (combine vars result)
               then map_opt lin_min (combine (combine vars mins) result) else Some mins) with
        | None => None
        | Some mins =>
          if forallb (vars_valid vars) result then
            Some (RGen vars mins result (forallb gen_infinite (combine vars result)) steps seen)
          else None
        end
      | _, _, _ => None
      end
    end.

  (** lines 967-974: a meta Diff_Rule is not tightened *)
  Definition make_meta_diff (inits diffs : list (option val)) (s : sim val Sym St)
             (seen : ndict val) : rule :=
    RDiff inits diffs (match s_steps s with VS q => VE (Expr [] q) | v => v end) seen.

  (** lines 712-1015.  A proof after which [states_last_seen] is None is an exception
      here; it takes a rule without states, and every rule has the state of its own
      transitions. *)
  Definition prove_rule_v (rules : list (key * rrule)) (next : nat) (t : ctape Z Sym) (q : St)
             (delta : nat) : option (nat * option rrule) :=
    match gen_nums next (nums t) with
    | None => None
    | Some (next, inits, m) =>
      match gen_loop_v rules delta next (gen_sim0 t q inits) m with
      | PExn => None
      | PFail => Some (next, None)
      | POk (next, s, m) =>
        if negb (key_eqb M (strip_config v_is1 (s_state s) (s_tape s)) (strip_config z_is1 q t))
        then Some (next, None)
        else
          let finals := nums (s_tape s) in
          let diffs := map diff_num (combine finals inits) in
          let meta := Nat.ltb 0 (s_rules s) in
          match s_seen s with
          | None => None
          | Some seen =>
            match (if forallb num_scalar diffs then
                     if meta then Some (make_meta_diff inits diffs s seen)
                     else make_diff inits diffs m s seen
                   else make_gen_v inits finals m s seen) with
            | None => None
            | Some r => Some (next, Some (RRule r meta))
            end
          end
      end
    end.

  (** the counts of the base simulator as numbers of the model, and back *)
  Definition tape_val (t : ctape Z Sym) : ctape val Sym :=
    let f := map (fun b => Blk (k_sym b) (option_map (fun z => VS (inject_Z z)) (k_num b))) in
    CTape (ct_dir t) (f (ct_l t)) (f (ct_r t)).
  Definition half_int (h : list (blk val Sym)) : option (list (blk Z Sym)) :=
    map_opt (fun b => option_map (Blk (k_sym b)) (inf_opt v_int (k_num b))) h.
  Definition tape_int (t : ctape val Sym) : option (ctape Z Sym) :=
    match half_int (ct_l t), half_int (ct_r t) with
    | Some l, Some r => Some (CTape (ct_dir t) l r)
    | _, _ => None
    end.
  Definition result_int (r : prover_result val Sym) : option (prover_result Z Sym) :=
    match r with
    | PNothing => Some PNothing
    | PInf states => Some (PInf states)
    | PApply t n seen =>
      match tape_int t, v_int n, inf_opt (seen_map_opt v_int) seen with
      | Some t, Some n, Some seen => Some (PApply t n seen)
      | _, _, _ => None
      end
    end.
  Definition apply_rule_z (next : nat) (r : rule) (t : ctape Z Sym)
    : option (nat * option (prover_result Z Sym * bool)) :=
    match apply_rule_v next r (tape_val t) with
    | None => None
    | Some (next, None) => Some (next, None)
    | Some (next, Some (result, large)) =>
      option_map (fun r => (next, Some (r, large))) (result_int result)
    end.

  Record rprover := RProver {
    rp_rules : list (key (Sym := Sym) (St := St) * rrule);
    rp_past : list (key (Sym := Sym) (St := St) * past_config);
    rp_next : nat }.
  Definition rprover_init (next : nat) : rprover := RProver [] [] next.

  (** lines 683-710 *)
  Definition add_rule_r (p : rprover) (k : key) (r : rrule) : rprover :=
    let saved := match kget M k (rp_past p) with Some s => s | None => Past None None end in
    RProver (kset M k r (rp_rules p)) [(k, Past None (last_delta saved))] (rp_next p).

  (** lines 572-640 *)
  Definition log_and_apply_r (p : rprover) (t : ctape Z Sym) (q : St) (loop : nat)
    : option (rprover * prover_result Z Sym) :=
    let k := strip_config z_is1 q t in
    match kget M k (rp_rules p) with
    | Some r =>
      match apply_rule_z (rp_next p) (rr_rule r) t with
      | None => None
      | Some (next, Some (result, large)) =>
        Some (RProver (rp_rules p) (if large then [] else rp_past p) next, result)
      | Some (next, None) => Some (RProver (rp_rules p) (rp_past p) next, PNothing)
      end
    | None =>
      let pc := match kget M k (rp_past p) with Some c => c | None => Past None None end in
      let '(prove, pc') := log_config pc loop in
      let p := RProver (rp_rules p) (kset M k pc' (rp_past p)) (rp_next p) in
      if prove then
        let delta := match last_loop pc' with Some l => (loop - l)%nat | None => 0%nat end in
        match prove_rule_v (rp_rules p) (rp_next p) t q delta with
        | None => None
        | Some (next, None) => Some (RProver (rp_rules p) (rp_past p) next, PNothing)
        | Some (next, Some r) =>
          let p := add_rule_r (RProver (rp_rules p) (rp_past p) next) k r in
          match apply_rule_z next (rr_rule r) t with
          | None => None
          | Some (next, result) =>
            Some (RProver (rp_rules p) (rp_past p) next,
                  match result with Some (x, _) => x | None => PNothing end)
          end
        end
      else if Nat.ltb max_prover_configs (length (rp_past p)) then
        Some (RProver (rp_rules p) [] (rp_next p), PNothing)
      else Some (p, PNothing)
    end.
End ProverRec.
Arguments rprover : clear implicits.
Arguments rprover_init {Sym St}.

(** Macro_Simulator.py lines 118-128 with [--recursive]: what a caller reads off, and
    the rules recorded in [prover.rules] *)
Definition is_diff (r : rule) : bool := match r with RDiff _ _ _ _ => true | _ => false end.
Definition has_meta_general (rules : list rrule) : bool :=
  existsb (fun r => rr_meta r && negb (is_diff (rr_rule r))) rules.
Definition run_recursive (tab : ttable) (g : setting) (mc mr next : nat) (d : driver)
  : option (report * list rrule) :=
  with_machine tab g (fun _ _ M =>
    match drive M (log_and_apply_r M mc mr) d (rprover_init next, sim_init zops M) with
    | Some (p, s) => Some (report_of M s, map snd (rp_rules p))
    | None => None
    end).
