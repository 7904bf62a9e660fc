(** * Model of the Rust validator of rules: [rust/src/validator.rs], [config.rs], [count_expr.rs], [tm.rs]

    Counts are sums of variables and constants ([VarSum]) or infinite; recursive expressions ([RecursiveExpr], count_expr.rs lines 36-41) are not
    modelled.  Integers do not overflow.  Vectors whose last element is nearest to the head are lists whose first element is nearest to the
    head.  [None]: an error is returned, the program panics, or a loop does not end within the fuel of the model.  Parsing and display are left out. *)
Require Import ZArith List Lia Bool Arith.
From Verif Require Import Spec_TM M_Turing_Machine.
Import ListNotations.
Open Scope nat_scope.

(** ** count_expr.rs *)

(** lines 17-24; the entries in the order of the variables *)
Record vsum := VSum { vs_vars : list (nat * nat); vs_const : nat }.
(** lines 55-60 *)
Inductive count := Fin (e : vsum) | Inf.
(** lines 14-15: a substitution *)
Definition vsubst := list (nat * vsum).
Fixpoint subst_get (s : vsubst) (x : nat) : option vsum :=
  match s with [] => None | (y, e) :: s => if Nat.eqb x y then Some e else subst_get s x end.
Definition vs_of (k : nat) : vsum := VSum [] k.
Definition vs_var (x : nat) : vsum := VSum [(x, 1)] 0.

(** lines 571-581 *)
Fixpoint var_add (x c : nat) (m : list (nat * nat)) : list (nat * nat) :=
  match m with
  | [] => [(x, c)]
  | (y, d) :: m' => if x <? y then (x, c) :: m else if Nat.eqb x y then (y, d + c) :: m' else (y, d) :: var_add x c m'
  end.
Definition vs_add (a b : vsum) : vsum :=
  VSum (fold_left (fun m x => var_add (fst x) (snd x) m) (vs_vars b) (vs_vars a)) (vs_const a + vs_const b).
(** lines 593-610 *)
Definition vs_mul (a : vsum) (n : nat) : vsum :=
  match n with 0 => vs_of 0 | 1 => a | _ => VSum (map (fun x => (fst x, snd x * n)) (vs_vars a)) (vs_const a * n) end.
(** lines 130-146 *)
Definition vs_is_zero (a : vsum) : bool := (Nat.eqb (vs_const a) 0 && match vs_vars a with [] => true | _ => false end)%bool.
Definition vs_decrement (a : vsum) : option vsum := match vs_const a with O => None | S k => Some (VSum (vs_vars a) k) end.
(** lines 152-171: without recursive expressions [rec_subst] stays empty and lines 172-201 change nothing *)
Definition vs_subst (s : vsubst) (a : vsum) : vsum :=
  fold_left (fun r x => vs_add r (vs_mul (match subst_get s (fst x) with Some e => e | None => vs_var (fst x) end) (snd x))) (vs_vars a) (vs_of (vs_const a)).
(** lines 205-222 *)
Fixpoint var_remove (x : nat) (m : list (nat * nat)) : option (nat * list (nat * nat)) :=
  match m with
  | [] => None
  | (y, d) :: m => if Nat.eqb x y then Some (d, m) else option_map (fun r => (fst r, (y, d) :: snd r)) (var_remove x m)
  end.
Fixpoint vars_sub (m other : list (nat * nat)) : option (list (nat * nat)) :=
  match other with
  | [] => Some m
  | (x, c2) :: other =>
    match var_remove x m with
    | Some (c1, m') => if c1 <? c2 then None else vars_sub (if 0 <? c1 - c2 then var_add x (c1 - c2) m' else m') other
    | None => None
    end
  end.
Definition vs_checked_sub (a b : vsum) : option vsum :=
  if vs_const a <? vs_const b then None else option_map (fun m => VSum m (vs_const a - vs_const b)) (vars_sub (vs_vars a) (vs_vars b)).
(** lines 224-229 *)
Definition vs_normalize (a : vsum) : vsum := VSum (filter (fun x => negb (Nat.eqb (snd x) 0)) (vs_vars a)) (vs_const a).
(** lines 472-487 (with lines 489-509) *)
Definition vs_eq_dec : forall a b : vsum, {a = b} + {a <> b}.
Proof. repeat decide equality. Defined.
Definition ce_checked_sub (a b : vsum) : option vsum :=
  let a := vs_normalize a in let b := vs_normalize b in if vs_eq_dec a b then Some (vs_of 0) else vs_checked_sub a b.
(** lines 512-569 *)
Definition count_is_zero (c : count) : bool := match c with Fin e => vs_is_zero e | Inf => false end.
Definition count_decrement (c : count) : option count := match c with Fin e => option_map Fin (vs_decrement e) | Inf => Some Inf end.
Definition count_subst (s : vsubst) (c : count) : count := match c with Fin e => Fin (vs_subst s e) | Inf => Inf end.
Definition count_add (a b : count) : count := match a, b with Fin x, Fin y => Fin (vs_add x y) | _, _ => Inf end.
Definition count_sub (a b : count) : option count :=
  match a, b with
  | Fin x, Fin y => option_map Fin (ce_checked_sub x y)
  | Inf, Fin _ => Some Inf
  | Inf, Inf => Some (Fin (vs_of 0))
  | Fin _, Inf => None
  end.

(** ** config.rs *)

(** lines 14-33 *)
Record block := Block { b_symbols : list nat; b_rep : count }.
Definition half := list block.
Record rconfig := RConfig { r_left : half; r_right : half; r_state : sstate; r_dir : dir }.
Definition one_block (w : list nat) : block := Block w (Fin (vs_of 1)).
Definition sym_eqb (a b : list nat) : bool := if list_eq_dec Nat.eq_dec a b then true else false.

(** lines 152-171 *)
Definition norm_push (b : block) (acc : half) : half :=
  if (match b_symbols b with [] => true | _ => false end || count_is_zero (b_rep b))%bool then acc
  else match acc with
       | last :: acc' => if sym_eqb (b_symbols last) (b_symbols b) then Block (b_symbols last) (count_add (b_rep last) (b_rep b)) :: acc' else b :: acc
       | [] => [b]
       end.
Definition normalize (h : half) : half := fold_right norm_push [] h.
(** lines 100-141 *)
Definition pop_symbol (h : half) : option (nat * half) :=
  match normalize h with
  | [] => None
  | b :: h' =>
    match count_decrement (b_rep b), b_symbols b with
    | Some decr, s :: w =>
      let h1 := if count_is_zero decr then h' else Block (b_symbols b) decr :: h' in
      Some (s, match w with [] => h1 | _ => one_block w :: h1 end)
    | _, _ => None
    end
  end.
(** lines 89-98 *)
Definition push_symbol (s : nat) (h : half) : half := one_block [s] :: h.
(** lines 173-239: the loop of lines 177-227, then the answer *)
Fixpoint strip (fuel : nat) (curr sub : half) : option half :=
  match sub with
  | [] => Some curr
  | st :: sub' =>
    match fuel, curr with
    | S fuel, ct :: curr' =>
      if sym_eqb (b_symbols ct) (b_symbols st) then
        match count_sub (b_rep ct) (b_rep st) with
        | Some diff => strip fuel (if count_is_zero diff then curr' else Block (b_symbols ct) diff :: curr') sub'
        | None => None
        end
      else match pop_symbol curr, pop_symbol sub with
           | Some (l, c), Some (r, s) => if Nat.eqb l r then strip fuel c s else None
           | _, _ => None
           end
    | _, _ => None
    end
  end.
Definition half_replace (fuel : nat) (h old new : half) : option half := option_map (fun rest => new ++ rest) (strip fuel (normalize h) (normalize old)).
(** lines 241-249 *)
Definition half_equivalent (fuel : nat) (h other : half) : bool := match half_replace fuel h other [] with Some [] => true | _ => false end.
(** lines 47-52, 143-150, 328-337 *)
Definition half_subst (s : vsubst) (h : half) : half := map (fun b => Block (b_symbols b) (count_subst s (b_rep b))) h.
Definition conf_subst (s : vsubst) (c : rconfig) : rconfig := RConfig (half_subst s (r_left c)) (half_subst s (r_right c)) (r_state c) (r_dir c).
(** lines 339-353 *)
Definition conf_replace (fuel : nat) (c old new : rconfig) : option rconfig :=
  if (sstate_eqb (r_state c) (r_state old) && dir_eqb (r_dir c) (r_dir old))%bool then
    match half_replace fuel (r_left c) (r_left old) (r_left new), half_replace fuel (r_right c) (r_right old) (r_right new) with
    | Some l, Some r => Some (RConfig l r (r_state new) (r_dir new))
    | _, _ => None
    end
  else None.
(** lines 355-360 *)
Definition conf_equivalent (fuel : nat) (c other : rconfig) : bool :=
  (sstate_eqb (r_state c) (r_state other) && dir_eqb (r_dir c) (r_dir other) &&
   half_equivalent fuel (r_left c) (r_left other) && half_equivalent fuel (r_right c) (r_right other))%bool.

(** tm.rs lines 15-40, 89-92; an index outside the table panics *)
Inductive rtrans := RUndefined | RTrans (symbol : nat) (d : dir) (state : sstate).
Definition rtm := list (list rtrans).
Definition rs_trans (tm : rtm) (q a : nat) : option rtrans := match nth_error tm q with Some row => nth_error row a | None => None end.

(** config.rs lines 296-316 *)
Definition conf_step (tm : rtm) (c : rconfig) : option rconfig :=
  match pop_symbol (match r_dir c with R => r_right c | L => r_left c end), r_state c with
  | Some (a, front), SRun q =>
    match rs_trans tm q a with
    | Some (RTrans w d q') =>
      let l := match r_dir c with R => r_left c | L => front end in
      let r := match r_dir c with R => front | L => r_right c end in
      Some (match d with R => RConfig (push_symbol w l) r q' R | L => RConfig l (push_symbol w r) q' L end)
    | _ => None
    end
  | _, _ => None
  end.
(** config.rs lines 318-326 *)
Fixpoint conf_steps (tm : rtm) (n : nat) (c : rconfig) : option rconfig :=
  match n with O => Some c | S n => match conf_step tm c with Some c => conf_steps tm n c | None => None end end.

(** ** validator.rs *)

(** lines 16-55 *)
Inductive proof_step := TMSteps (n : nat) | RuleStep (rule_id : nat) (s : vsubst) | InductiveStep (s : vsubst) | Admit.
Inductive rproof := Simple (p : list proof_step) | Inductive_proof (base step : list proof_step).
Record rule := Rule { ru_init : rconfig; ru_final : rconfig; ru_proof : rproof }.
Definition induction_var : nat := 0.
(** lines 112-128 *)
Definition try_apply_rule (fuel : nat) (c : rconfig) (r : rule) (s : vsubst) : option rconfig :=
  conf_replace fuel c (conf_subst s (ru_init r)) (conf_subst s (ru_final r)).
(** lines 130-172 *)
Definition apply_proof_step (tm : rtm) (fuel : nat) (c : rconfig) (p : proof_step) (prev : list rule) (induction_rule : option rule) : option rconfig :=
  match p with
  | TMSteps n => conf_steps tm n c
  | RuleStep k s => match nth_error prev k with Some r => try_apply_rule fuel c r s | None => None end
  | InductiveStep s =>
    match induction_rule, subst_get s induction_var with
    | Some r, Some e => if vs_eq_dec e (vs_var induction_var) then try_apply_rule fuel c r s else None
    | _, _ => None
    end
  | Admit => Some c
  end.
(** lines 174-201 *)
Fixpoint validate_proof (tm : rtm) (fuel : nat) (c : rconfig) (steps : list proof_step) (final : rconfig) (prev : list rule) (induction_rule : option rule) : bool :=
  match steps with
  | [] => conf_equivalent fuel c final
  | Admit :: _ => true
  | p :: steps => match apply_proof_step tm fuel c p prev induction_rule with Some c => validate_proof tm fuel c steps final prev induction_rule | None => false end
  end.
(** lines 203-245 *)
Definition validate_rule (tm : rtm) (fuel : nat) (r : rule) (prev : list rule) : bool :=
  match ru_proof r with
  | Simple p => validate_proof tm fuel (ru_init r) p (ru_final r) prev None
  | Inductive_proof base step =>
    let s0 := [(induction_var, vs_of 0)] in let s1 := [(induction_var, VSum [(induction_var, 1)] 1)] in
    (validate_proof tm fuel (conf_subst s0 (ru_init r)) base (conf_subst s0 (ru_final r)) prev None &&
     validate_proof tm fuel (conf_subst s1 (ru_init r)) step (conf_subst s1 (ru_final r)) prev (Some r))%bool
  end.
(** lines 247-254 *)
Fixpoint validate_from (tm : rtm) (fuel : nat) (prev rules : list rule) : bool :=
  match rules with [] => true | r :: rules => (validate_rule tm fuel r prev && validate_from tm fuel (prev ++ [r]) rules)%bool end.
Definition validate_rule_set (tm : rtm) (fuel : nat) (rules : list rule) : bool := validate_from tm fuel [] rules.
