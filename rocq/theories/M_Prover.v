(** * Model of [Code/Macro/Proof_System.py]

    Options modelled: [recursive] False, [compute_steps] True, [limited_rules] (M_ProverLim models True),
    [exp_linear_rules] and [exp_meta_linear_rules] False (the defaults,
    lines 28-51); [max_prover_configs] and
    [max_num_reps] are parameters.  Printing and statistics are not modelled.
    Exceptions and failed assertions are [None] (or [PExn]).

    Tapes inside rules are represented by the list of their counts in the order
    of the Python expression [tape[0] + tape[1]] (bottom of the stack first); the
    symbols of these tapes are never used (comment in the code, line 62). *)
Require Import ZArith List Lia Bool Arith QArith Qround.
From Verif Require Import Spec_TM M_Turing_Machine M_Expr M_Tape M_Simulator.
Import ListNotations.
Open Scope Z_scope.

(** counts inside the generalised simulator are Python ints or Expressions *)
Definition vops : numops val :=
  NumOps (fun z => VS (inject_Z z)) v_add
         (fun v => match v with VS q => qz q | VE e => e_eqb e (VS 0%Q) end)
         (fun z v => v_mul (VS (inject_Z z)) v).

(** a Python number that is an int *)
Definition q_int (q : Q) : option Z :=
  let r := Qred q in if Pos.eqb (Qden r) 1 then Some (Qnum r) else None.
Definition v_int (v : val) : option Z := match v with VS q => q_int q | VE _ => None end.

(** ** Counts of a tape *)

Definition shape {N Sym} (t : ctape N Sym) : dir * list Sym * list Sym :=
  (ct_dir t, map k_sym (ct_l t), map k_sym (ct_r t)).
(** [block.num for block in tape[0] + tape[1]] *)
Definition nums {N Sym} (t : ctape N Sym) : list (option N) :=
  rev (map k_num (ct_l t)) ++ rev (map k_num (ct_r t)).
(** the tape with the given symbols and counts *)
Fixpoint blks {N Sym} (ss : list Sym) (ns : list (option N)) : list (blk N Sym) :=
  match ss, ns with s :: ss, n :: ns => Blk s n :: blks ss ns | _, _ => [] end.
Definition mk {N Sym} (sh : dir * list Sym * list Sym) (ns : list (option N)) : ctape N Sym :=
  let '(d, ls, rs) := sh in
  CTape d (blks ls (rev (firstn (length ls) ns))) (blks rs (rev (skipn (length ls) ns))).

(** ** Series sums, lines 1437-1483 *)

(** lines 1437-1450; the second component is a number or an expression *)
Definition factor_var (t : term) (k : nat) : nat * val :=
  let k_pow := fold_left (fun p vp => if Nat.eqb (fst vp) k then snd vp else p) (t_vars t) 0%nat in
  let rest := filter (fun vp => negb (Nat.eqb (fst vp) k)) (t_vars t) in
  (k_pow, match rest with [] => VS (t_coef t) | _ => VE (Expr [Term rest (t_coef t)] 0%Q) end).

(** Python [v // z] for a non-zero int [z] (Algebraic_Expression.py line 236 for expressions) *)
Definition v_floordiv (v : val) (z : Z) : option val :=
  match v with
  | VS q => Some (VS (inject_Z (Qfloor (q / inject_Z z))))
  | VE e => option_map VE (e_div e z)
  end.

(** lines 1459-1482, one term *)
Definition series_term (t : term) (k : nat) (N : val) : option val :=
  let '(k_pow, rest) := factor_var t k in
  let N1 := v_sub N (VS 1%Q) in
  match k_pow with
  | 0%nat => Some (v_mul rest N)
  | 1%nat => v_floordiv (v_mul (v_mul rest N) N1) 2
  | 2%nat => v_floordiv (v_mul (v_mul (v_mul rest N) N1)
                               (v_sub (v_mul (VS 2%Q) N) (VS 1%Q))) 6
  | 3%nat => option_map (fun v => v_pow v 2) (v_floordiv (v_mul (v_mul rest N) N1) 2)
  | _ => None
  end.
Fixpoint series_terms (ts : list term) (k : nat) (N : val) (total : val) : option val :=
  match ts with
  | [] => Some total
  | t :: ts => match series_term t k N with
               | Some v => series_terms ts k N (v_add total v)
               | None => None
               end
  end.
(** lines 1452-1483 *)
Definition series_sum (v : val) (k : nat) (N : val) : option val :=
  match v with
  | VS q => match q_int q with Some _ => Some (v_mul (VS q) N) | None => None end
  | VE e => series_terms (e_terms e) k N (v_mul (VS (e_const e)) N)
  end.

(** Rule_Func.py lines 34-39, Subtract_Func.max_reps *)
Definition subtract_max_reps (min const start : Z) : Z * Z :=
  let min_after := min - const in
  ((start - min_after) / const, (start - min_after) mod const + min_after).

(** ** Rules *)

(** lines 59-75 Diff_Rule; lines 320-353 General_Rule.  The other rule classes
    are not produced with these options (Linear_Rule and Exponential_Rule: see
    [prove_rule]). *)
Inductive rule :=
| RDiff (init diff : list (option val)) (num_steps : val) (seen : ndict val)
| RGen (vars : list (option nat)) (mins : list (option Q)) (result : list (option val))
       (infinite : bool) (num_steps : val) (seen : ndict val).

(** outcome of a proof attempt: exception, False, or a value *)
Inductive pr (A : Type) := PExn | PFail | POk (a : A).
Arguments PExn {A}. Arguments PFail {A}. Arguments POk {A}.

Fixpoint map_opt {A B} (f : A -> option B) (l : list A) : option (list B) :=
  match l with
  | [] => Some []
  | a :: l => match f a, map_opt f l with
              | Some b, Some bs => Some (b :: bs)
              | _, _ => None
              end
  end.
Definition seen_map_opt {N N'} (f : N -> option N') (d : ndict N) : option (ndict N') :=
  map_opt (fun kv => option_map (pair (fst kv)) (f (snd kv))) d.
(** a count that may be infinite; [substitute(math.inf, _)] is [math.inf] *)
Definition inf_opt {N N'} (f : N -> option N') (o : option N) : option (option N') :=
  match o with None => Some None | Some v => option_map Some (f v) end.

Section Prover.
  Context {Sym St : Type} (M : machine Sym St) (max_prover_configs max_num_reps : nat).

  (** lines 414-432; halves are listed from the head, the bottom block is dropped *)
  Definition key := (St * dir * list (Sym * bool) * list (Sym * bool))%type.
  Definition strip_half {N} (is1 : N -> bool) (h : list (blk N Sym)) : list (Sym * bool) :=
    map (fun b => (k_sym b, match k_num b with Some n => is1 n | None => false end)) (removelast h).
  Definition strip_config {N} (is1 : N -> bool) (q : St) (t : ctape N Sym) : key :=
    (q, ct_dir t, strip_half is1 (ct_l t), strip_half is1 (ct_r t)).
  Definition z_is1 (z : Z) : bool := z =? 1.
  Definition v_is1 (v : val) : bool :=
    match v with VS q => Qeq_bool q 1%Q | VE e => e_eqb e (VS 1%Q) end.

  Fixpoint half_eqb (a b : list (Sym * bool)) : bool :=
    match a, b with
    | [], [] => true
    | (s, x) :: a, (s', y) :: b => m_sym_eqb M s s' && Bool.eqb x y && half_eqb a b
    | _, _ => false
    end.
  Definition key_eqb (a b : key) : bool :=
    let '(q, d, l, r) := a in
    let '(q', d', l', r') := b in
    m_st_eqb M q q' && dir_eqb d d' && half_eqb l l' && half_eqb r r'.

  (** lines 434-466; [times_seen] is never read.  Loop numbers grow, so their
      difference is a natural number. *)
  Record past_config := Past { last_loop : option nat; last_delta : option nat }.
  Definition log_config (p : past_config) (loop : nat) : bool * past_config :=
    match last_loop p with
    | None => (false, Past (Some loop) (last_delta p))
    | Some l =>
      let delta := (loop - l)%nat in
      match last_delta p with
      | Some (S d) => if Nat.eqb (S d) delta then (true, p)
                      else (false, Past (Some loop) (Some delta))
      | _ => (false, Past (Some loop) (Some delta))
      end
    end.

  (** lines 481-516, and the global counter [Variable.num_vars] *)
  Record prover := Prover {
    p_rules : list (key * rule);
    p_past : list (key * past_config);
    p_next : nat }.
  Definition prover_init (next : nat) : prover := Prover [] [] next.

  Fixpoint kget {A} (k : key) (d : list (key * A)) : option A :=
    match d with
    | [] => None
    | (k', a) :: d => if key_eqb k k' then Some a else kget k d
    end.
  Fixpoint kset {A} (k : key) (a : A) (d : list (key * A)) : list (key * A) :=
    match d with
    | [] => [(k, a)]
    | (k', a') :: d => if key_eqb k k' then (k', a) :: d else (k', a') :: kset k a d
    end.

  (** ** prove_rule, lines 712-1015 *)

  (** lines 746-771: the generalised counts, the minimum of every new variable.
      A count 0 fails the assertion of line 766. *)
  Fixpoint gen_nums (next : nat) (ns : list (option Z))
    : option (nat * list (option val) * ndict Q) :=
    match ns with
    | [] => Some (next, [], [])
    | None :: ns => match gen_nums next ns with
                    | Some (nx, vs, m) => Some (nx, None :: vs, m)
                    | None => None
                    end
    | Some z :: ns =>
      if z =? 1 then
        match gen_nums next ns with
        | Some (nx, vs, m) => Some (nx, Some (VS (inject_Z z)) :: vs, m)
        | None => None
        end
      else if z =? 0 then None
      else
        let c := if z >? 2^20 then 2^20 else z in
        match gen_nums (S next) ns with
        | Some (nx, vs, m) => Some (nx, Some (VE (var_plus next (inject_Z c))) :: vs,
                                    (next, inject_Z c) :: m)
        | None => None
        end
    end.

  (** line 779: [ae.min_val(block.num) <= 0] *)
  Definition num_le0 (n : option val) : bool :=
    match n with
    | None => false
    | Some v => match v_min_val v with None => true | Some q => Qle_bool q 0 end
    end.

  (** lines 816-832.  A minimum of minus infinity (a negative coefficient) is an
      exception here; it does not occur (P_Prover). *)
  Fixpoint update_min (ns : list (option val)) (m : ndict Q) : pr (ndict Q) :=
    match ns with
    | [] => POk m
    | None :: ns => update_min ns m
    | Some v :: ns =>
      match nodup Nat.eq_dec (v_variables v) with
      | [] => update_min ns m
      | [x] => match nd_get x m, v_min_val v with
               | Some a, Some b => update_min ns (nd_set x (if Qle_bool a b then a else b) m)
               | _, _ => PExn
               end
      | _ => PFail
      end
    end.

  (** lines 776-832 *)
  Fixpoint gen_loop (delta : nat) (s : sim val Sym St) (m : ndict Q)
    : pr (sim val Sym St * ndict Q) :=
    match delta with
    | 0%nat => POk (s, m)
    | S delta =>
      match ct_top (s_tape s) with
      | None => PExn
      | Some b =>
        if num_le0 (k_num b) then PFail
        else match sim_move vops M (loop_inc s) with
             | None => PExn
             | Some s =>
               if negb (cond_eqb (s_op s) RUNNING) then PFail
               else match update_min (nums (s_tape s)) m with
                    | PExn => PExn
                    | PFail => PFail
                    | POk m => gen_loop delta s m
                    end
             end
      end
    end.

  (** lines 853-861: one block of the difference tape *)
  Definition diff_num (fi : option val * option val) : option val :=
    match fi with
    | (Some f, Some i) => Some (match v_sub f i with
                                | VE e => if e_is_const e then VS (e_const e) else VE e
                                | v => v
                                end)
    | _ => None
    end.
  Definition num_scalar (n : option val) : bool :=
    match n with Some (VE _) => false | _ => true end.

  (** lines 944-951: one block of the initial tape is tightened *)
  Definition tighten (m : ndict Q) (n : option val) : option (option val * subs) :=
    match n with
    | Some (VE e) =>
      match variable_restricted e with
      | None => None
      | Some x =>
        match nd_get x m with
        | None => None
        | Some a =>
          let new := v_add (v_sub (VE (var_expr x)) (VS a)) (VS 1%Q) in
          match e_subst e [(x, new)] with
          | None => None
          | Some v => Some (Some v, [(x, new)])
          end
        end
      end
    | _ => Some (n, [])
    end.

  (** lines 866-882: variable, minimum and substitution of one block *)
  Definition gen_entry (m : ndict Q) (n : option val) : option (option nat * option Q * subs) :=
    match n with
    | Some (VE e) =>
      match variable_restricted e with
      | None => None
      | Some x =>
        match nd_get x m with
        | None => None
        | Some a => Some (Some x, Some (e_const e - a + 1)%Q,
                          [(x, v_sub (VE e) (v_mul (VS 2%Q) (VS (e_const e))))])
        end
      end
    | Some (VS q) => Some (None, Some q, [])
    | None => Some (None, None, [])
    end.

  (** lines 150-173 and 223-262: [Linear_Rule.try_gen] and [Exponential_Rule.try_gen]
      succeed only if every block with a variable becomes a linear expression in
      this variable *)
  Definition linear_shape (vr : option nat * option val) : bool :=
    match vr with
    | (Some x, Some (VE e)) =>
      match nodup Nat.eq_dec (v_variables (VE e)) with
      | [y] => Nat.eqb x y && match as_strictly_linear e with Some _ => true | None => false end
      | _ => false
      end
    | (Some _, _) => false
    | (None, _) => true
    end.

  (** lines 345-352 *)
  Definition gen_infinite (vr : option nat * option val) : bool :=
    match vr with
    | (Some x, Some v) => always_ge v (VE (var_expr x))
    | _ => true
    end.
  (** lines 338-341 *)
  Definition vars_valid (vars : list (option nat)) (n : option val) : bool :=
    match n with
    | Some v => forallb (fun x => existsb (fun o => match o with Some y => Nat.eqb x y | None => false end)
                                          vars) (v_variables v)
    | None => true
    end.

  (** lines 940-1013; line 971-974 casts the step count to an Expression *)
  Definition make_diff (inits diffs : list (option val)) (m : ndict Q) (s : sim val Sym St)
             (seen : ndict val) : option rule :=
    match map_opt (tighten m) inits with
    | None => None
    | Some l =>
      let replaces := concat (map snd l) in
      match map_opt (inf_opt (fun v => v_subst v replaces)) diffs,
            v_subst (s_steps s) replaces,
            seen_map_opt (fun v => v_subst v replaces) seen with
      | Some diffs, Some steps, Some seen =>
        Some (RDiff (map fst l) diffs
                    (match steps with VS q => VE (Expr [] q) | v => v end) seen)
      | _, _, _ => None
      end
    end.

  (** lines 863-935.  A rule accepted by [Linear_Rule.try_gen] or
      [Exponential_Rule.try_gen] is an exception here; this does not occur
      without recursive rules (P_Prover). *)
  Definition make_gen (inits finals : list (option val)) (m : ndict Q) (s : sim val Sym St)
             (seen : ndict val) : option rule :=
    match map_opt (gen_entry m) inits with
    | None => None
    | Some l =>
      let vars := map (fun e => fst (fst e)) l in
      let mins := map (fun e => snd (fst e)) l in
      let assignment := concat (map snd l) in
      match map_opt (inf_opt (fun v => v_subst v assignment)) finals,
            v_subst (s_steps s) assignment,
            seen_map_opt (fun v => v_subst v assignment) seen with
      | Some result, Some steps, Some seen =>
        if forallb linear_shape (combine vars result) then None
        else if forallb (vars_valid vars) result then
          Some (RGen vars mins result (forallb gen_infinite (combine vars result)) steps seen)
        else None
      | _, _, _ => None
      end
    end.

  Definition gen_sim0 (t : ctape Z Sym) (q : St) (inits : list (option val)) : sim val Sym St :=
    Sim (mk (shape t) inits) q (ct_dir t) (VE (Expr [] 0%Q)) 0 RUNNING [] (Some []) None 0.

  Definition prove_rule (next : nat) (t : ctape Z Sym) (q : St) (delta : nat)
    : option (nat * option rule) :=
    match gen_nums next (nums t) with
    | None => None
    | Some (next, inits, m) =>
      match gen_loop delta (gen_sim0 t q inits) m with
      | PExn => None
      | PFail => Some (next, None)
      | POk (s, m) =>
        if negb (key_eqb (strip_config v_is1 (s_state s) (s_tape s)) (strip_config z_is1 q t))
        then Some (next, None)
        else
          let finals := nums (s_tape s) in
          let diffs := map diff_num (combine finals inits) in
          match s_seen s with
          | None => None
          | Some seen =>
            match (if forallb num_scalar diffs then make_diff inits diffs m s seen
                   else make_gen inits finals m s seen) with
            | None => None
            | Some r => Some (next, Some r)
            end
          end
      end
    end.

  (** ** Applying rules *)

  (** a limit: repetitions, position of the limiting block, its final count *)
  Definition limit := option (Z * nat * Z).

  (** lines 1086-1160; values are the dicts [init_value], [delta_value] *)
  Fixpoint diff_scan (i : nat) (bs : list (option val * option val * option Z)) (lim : limit)
           (vals : list (nat * (Z * Z))) : pr (limit * list (nat * (Z * Z))) :=
    match bs with
    | [] => POk (lim, vals)
    | (Some (VE e), d, n) :: bs =>
      match variable_restricted e, q_int (e_const e), n with
      | Some x, Some c, Some n =>
        if (n - c <? 0) then PFail
        else match d with
             | Some d =>
               match v_int d with
               | None => PExn
               | Some dz =>
                 let lim := if dz <? 0 then
                     let '(reps, final) := subtract_max_reps c (- dz) n in
                     match lim with
                     | None => Some (reps, i, final)
                     | Some (best, _, _) => if reps <? best then Some (reps, i, final) else lim
                     end
                   else lim in
                 diff_scan (S i) bs lim (vals ++ [(x, (n - c, dz))])
               end
             | None => PExn
             end
      | _, _, _ => PExn
      end
    | _ :: bs => diff_scan (S i) bs lim vals
    end.

  (** lines 1205-1215, without the filter of line 1216 *)
  Fixpoint diff_nums (i : nat) (reps : Z) (li : nat) (final : Z)
           (bs : list (option val * option Z)) : option (list (option Z)) :=
    match bs with
    | [] => Some []
    | (d, n) :: bs =>
      match diff_nums (S i) reps li final bs with
      | None => None
      | Some ns =>
        match n with
        | None => Some (None :: ns)
        | Some n =>
          if Nat.eqb i li then Some (Some final :: ns)
          else match d with
               | Some d => match v_int d with
                           | Some dz => Some (Some (n + reps * dz) :: ns)
                           | None => None
                           end
               | None => None
               end
        end
      end
    end.

  (** line 1216 *)
  Definition drop_zeros (t : ctape Z Sym) : ctape Z Sym :=
    let f := filter (fun b => match k_num b with Some z => negb (z =? 0) | None => true end) in
    CTape (ct_dir t) (f (ct_l t)) (f (ct_r t)).

  (** lines 1165-1171: the states that recur, [None] for an empty dict *)
  Definition recur_states (seen : ndict val) : option (list nat) :=
    match seen with [] => None | _ => Some (map fst seen) end.

  (** lines 1070-1230; [Some None]: the rule does not apply *)
  Definition apply_diff_rule (next : nat) (inits diffs : list (option val)) (steps : val)
             (seen : ndict val) (t : ctape Z Sym) : option (nat * option (prover_result Z Sym)) :=
    match diff_scan 0 (combine (combine inits diffs) (nums t)) None [] with
    | PExn => None
    | PFail => Some (next, None)
    | POk (None, _) => Some (next, Some (PInf (recur_states seen)))
    | POk (Some (reps, li, final), vals) =>
      if reps <=? 0 then Some (next, None)
      else
        let k := next in
        let sub := map (fun xv => (fst xv, v_add (VS (inject_Z (fst (snd xv))))
                                 (v_mul (VS (inject_Z (snd (snd xv)))) (VE (var_expr k))))) vals in
        let last := map (fun xv => (fst xv, VS (inject_Z (fst (snd xv) + snd (snd xv) * (reps - 1))))) vals in
        match v_subst steps sub with
        | None => None
        | Some this =>
          match series_sum this k (VS (inject_Z reps)) with
          | None => None
          | Some total =>
            match v_int total,
                  seen_map_opt (fun ls => match v_subst (v_sub total (v_sub steps ls)) last with
                                          | Some v => v_int v
                                          | None => None
                                          end) seen,
                  diff_nums 0 reps li final (combine diffs (nums t)) with
            | Some n, Some seen, Some ns =>
              Some (S next, Some (PApply (drop_zeros (mk (shape t) ns)) n (Some seen)))
            | _, _, _ => None
            end
          end
        end
    end.

  (** lines 1424-1434; [Some None]: below the minimum *)
  Fixpoint fits_min (bs : list (option nat * option Q * option Z)) (asg : subs) : option (option subs) :=
    match bs with
    | [] => Some (Some asg)
    | (Some x, Some m, Some z) :: bs =>
      if always_ge (VS (inject_Z z)) (VS m) then fits_min bs (asg ++ [(x, VS (inject_Z z))])
      else Some None
    | (Some _, _, _) :: _ => None
    | (None, _, _) :: bs => fits_min bs asg
    end.

  Fixpoint znums_eqb (a b : list (option Z)) : bool :=
    match a, b with
    | [], [] => true
    | Some x :: a, Some y :: b => (x =? y) && znums_eqb a b
    | None :: a, None :: b => znums_eqb a b
    | _, _ => false
    end.

  Inductive gen_result := GInf | GDone (cur : list (option Z)) (steps : Z) (last : option subs).

  (** lines 1361-1387; [fuel] counts the remaining repetitions *)
  Fixpoint gen_reps (fuel : nat) (vars : list (option nat)) (mins : list (option Q))
           (result : list (option val)) (steps : val) (cur : list (option Z)) (acc : Z)
           (last : option subs) : option gen_result :=
    match fits_min (combine (combine vars mins) cur) [] with
    | None => None
    | Some None => Some (GDone cur acc last)
    | Some (Some asg) =>
      match fuel with
      | 0%nat => Some (GDone cur acc last)
      | S fuel =>
        match v_subst steps asg,
              map_opt (inf_opt (fun v => match v_subst v asg with Some w => v_int w | None => None end))
                      result with
        | Some ns, Some next =>
          match v_int ns with
          | None => None
          | Some n =>
            if znums_eqb next cur then Some GInf
            else gen_reps fuel vars mins result steps next (acc + n) (Some asg)
          end
        | _, _ => None
        end
      end
    end.

  (** lines 1331-1421 *)
  Definition apply_general_rule (vars : list (option nat)) (mins : list (option Q))
             (result : list (option val)) (infinite : bool) (steps : val) (seen : ndict val)
             (t : ctape Z Sym) : option (option (prover_result Z Sym)) :=
    match max_num_reps with
    | 0%nat => None
    | _ =>
      match fits_min (combine (combine vars mins) (nums t)) [] with
      | None => None
      | Some fits =>
        if infinite && match fits with Some _ => true | None => false end
        then Some (Some (PInf (recur_states seen)))
        else
          match gen_reps max_num_reps vars mins result steps (nums t) 0 None with
          | None => None
          | Some GInf => Some (Some (PInf (recur_states seen)))
          | Some (GDone _ _ None) => Some None
          | Some (GDone cur acc (Some last)) =>
            let tape := drop_zeros (mk (shape t) cur) in
            match seen with
            | [] => Some (Some (PApply tape acc None))
            | _ =>
              match seen_map_opt (fun ls => match v_subst (v_sub (VS (inject_Z acc)) (v_sub steps ls)) last with
                                            | Some v => v_int v
                                            | None => None
                                            end) seen with
              | Some d => Some (Some (PApply tape acc (Some d)))
              | None => None
              end
            end
          end
      end
    end.

  (** lines 1017-1036 *)
  Definition apply_rule (next : nat) (r : rule) (t : ctape Z Sym)
    : option (nat * option (prover_result Z Sym)) :=
    match r with
    | RDiff inits diffs steps seen => apply_diff_rule next inits diffs steps seen t
    | RGen vars mins result infinite steps seen =>
      option_map (pair next) (apply_general_rule vars mins result infinite steps seen t)
    end.

  (** lines 683-710 *)
  Definition add_rule (p : prover) (k : key) (r : rule) : prover :=
    let saved := match kget k (p_past p) with Some s => s | None => Past None None end in
    Prover (kset k r (p_rules p)) [(k, Past None (last_delta saved))] (p_next p).

  (** lines 572-640 *)
  Definition log_and_apply (p : prover) (t : ctape Z Sym) (q : St) (loop : nat)
    : option (prover * prover_result Z Sym) :=
    let k := strip_config z_is1 q t in
    match kget k (p_rules p) with
    | Some r =>
      match apply_rule (p_next p) r t with
      | None => None
      | Some (next, Some result) => Some (Prover (p_rules p) [] next, result)
      | Some (next, None) => Some (Prover (p_rules p) (p_past p) next, PNothing)
      end
    | None =>
      let pc := match kget k (p_past p) with Some c => c | None => Past None None end in
      let '(prove, pc') := log_config pc loop in
      let p := Prover (p_rules p) (kset k pc' (p_past p)) (p_next p) in
      if prove then
        let delta := match last_loop pc' with Some l => (loop - l)%nat | None => 0%nat end in
        match prove_rule (p_next p) t q delta with
        | None => None
        | Some (next, None) => Some (Prover (p_rules p) (p_past p) next, PNothing)
        | Some (next, Some r) =>
          let p := add_rule (Prover (p_rules p) (p_past p) next) k r in
          match apply_rule next r t with
          | None => None
          | Some (next, result) =>
            Some (Prover (p_rules p) (p_past p) next,
                  match result with Some x => x | None => PNothing end)
          end
        end
      else if Nat.ltb max_prover_configs (length (p_past p)) then
        Some (Prover (p_rules p) [] (p_next p), PNothing)
      else Some (p, PNothing)
    end.
End Prover.
