(** * Model of linear and exponential rules applied in closed form

    [Code/Macro/Proof_System.py] with --exp-linear-rules: class Linear_Rule, lines
    99-172, and apply_linear_rule, lines 1241-1305; class Exponential_Rule, lines
    200-293 and apply_exponential_rule, lines 1307-1331; [Code/Macro/Rule_Func.py].

    Counts are [Z]; a formula integer is replaced by its value (see C23).  Rules whose
    coefficients, constants or minima are fractions are [None] here.  With this option no
    steps are counted (Macro_Simulator.py lines 156-157), so a rule has [num_steps] 0 and
    no [states_last_seen].  Applying a rule to counts that are expressions (line 1258,
    inside the proof of another rule) is not modelled. *)
Require Import ZArith List Lia Bool Arith QArith.
From Verif Require Import M_Expr M_Tape M_Simulator M_Prover M_Math.
Import ListNotations.
Open Scope Z_scope.

(** Rule_Func.py: Subtract_Func lines 20-42, Add_Func lines 45-59, Mult_Func lines
    62-95; the variable is left out *)
Inductive func :=
| FSub (min const : Z)
| FAdd (min const : Z)
| FMul (min coef const : Z).

Definition f_min (f : func) : Z := match f with FSub m _ | FAdd m _ | FMul m _ _ => m end.
(** [is_decreasing], lines 27, 52 and 71 *)
Definition f_decreasing (f : func) : bool := match f with FSub _ _ => true | _ => false end.
(** [has_collatz_decrease], line 28 *)
Definition f_collatz (f : func) : bool := match f with FSub _ c => 1 <? c | _ => false end.
(** [apply_rep], lines 41-42, 58-59 and 86-95 *)
Definition f_apply_rep (f : func) (start num_reps : Z) : option Z :=
  match f with
  | FSub _ c => Some (subtract_apply_rep c start num_reps)
  | FAdd _ c => Some (add_apply_rep c start num_reps)
  | FMul _ a b => match mult_apply_rep a b start num_reps with Some q => q_int q | None => None end
  end.

(** Proof_System.py lines 157-170; Rule_Func.py line 65 asserts a positive coefficient *)
Definition lin_func (min : Q) (e : expr) : option func :=
  match as_strictly_linear e with
  | Some (_, coef, const) =>
    match q_int min, q_int coef, q_int const with
    | Some m, Some a, Some b =>
      if a =? 1 then Some (if b <? 0 then FSub m (- b) else FAdd m b)
      else if 0 <? a then
        option_map (fun m' => FMul m' a b) (mult_compute_min (inject_Z a) (inject_Z b) m)
      else None
    | _, _, _ => None
    end
  | None => None
  end.

(** lines 139-172, [Linear_Rule.try_gen], block by block: [Some None] is False *)
Fixpoint try_gen (bs : list (option nat * option Q * option val)) : option (option (list (option func))) :=
  match bs with
  | [] => Some (Some [])
  | (None, _, _) :: bs => option_map (option_map (cons None)) (try_gen bs)
  | (Some x, m, r) :: bs =>
    if negb (linear_shape (Some x, r)) then Some None
    else
      match m, r with
      | Some m, Some (VE e) =>
        match lin_func m e with
        | Some f => option_map (option_map (cons (Some f))) (try_gen bs)
        | None => None
        end
      | _, _ => None
      end
  end.

(** lines 114-118 *)
Definition new_min (fm : option func * option Q) : option Q :=
  match fm with
  | (Some f, _) => Some (inject_Z (f_min f))
  | (None, m) => m
  end.

(** what is kept of a Linear_Rule, lines 101-137; [l_gen] is [gen_rule], lines 120-123 *)
Record linear_rule := LinearRule {
  l_vars : list (option nat);
  l_mins : list (option Q);
  l_funcs : list (option func);
  l_result : list (option val) }.
Definition l_infinite (l : linear_rule) : bool :=
  negb (existsb (fun f => match f with Some f => f_decreasing f | None => false end) (l_funcs l)).
Definition l_collatz (l : linear_rule) : bool :=
  existsb (fun f => match f with Some f => f_collatz f | None => false end) (l_funcs l).
Definition l_gen (l : linear_rule) : rule :=
  RGen (l_vars l) (l_mins l) (l_result l) (forallb gen_infinite (combine (l_vars l) (l_result l)))
       (VS 0%Q) [].

(** lines 139-172 *)
Definition linear_try_gen (vars : list (option nat)) (mins : list (option Q)) (result : list (option val))
  : option (option linear_rule) :=
  option_map (option_map (fun fs => LinearRule vars (map new_min (combine fs mins)) fs result))
             (try_gen (combine (combine vars mins) result)).

(** lines 1275-1285; an infinite count under a function is a TypeError *)
Fixpoint lin_limit (i : nat) (l : list (option func * option Z)) (lim : option (Z * nat * Z))
  : option (option (Z * nat * Z)) :=
  match l with
  | [] => Some lim
  | (Some (FSub m c), Some cur) :: l =>
    let '(this_reps, this_final) := subtract_max_reps m c cur in
    lin_limit (S i) l
              (match lim with
               | None => Some (this_reps, i, this_final)
               | Some (num_reps, _, _) =>
                 if (num_reps =? 0) || (this_reps <? num_reps) then Some (this_reps, i, this_final) else lim
               end)
  | (Some (FSub _ _), None) :: _ => None
  | _ :: l => lin_limit (S i) l lim
  end.

(** lines 1289-1297 *)
Fixpoint lin_counts (i limit_index : nat) (limit_final num_reps : Z) (l : list (option func * option Z))
  : option (list (option Z)) :=
  match l with
  | [] => Some []
  | (f, cur) :: l =>
    match (if Nat.eqb i limit_index then Some (Some limit_final)
           else match f, cur with
                | Some f, Some z => option_map Some (f_apply_rep f z num_reps)
                | Some _, None => None
                | None, cur => Some cur
                end),
          lin_counts (S i) limit_index limit_final num_reps l with
    | Some n, Some ns => Some (n :: ns)
    | _, _ => None
    end
  end.

Inductive lin_result (T : Type) := LBelow | LInf | LApply (t : T).
Arguments LBelow {T}. Arguments LInf {T}. Arguments LApply {T}.

(** lines 1246-1305 on the counts: below the minimum, applies for ever, or the new counts *)
Definition apply_linear_counts (l : linear_rule) (cur : list (option Z)) : option (lin_result (list (option Z))) :=
  if negb (Nat.eqb (length cur) (length (l_vars l))) then None
  else
    match fits_min (combine (combine (l_vars l) (l_mins l)) cur) [] with
    | None => None
    | Some None => Some LBelow
    | Some (Some _) =>
      if l_infinite l then Some LInf
      else
        match lin_limit 0 (combine (l_funcs l) cur) None with
        | Some (Some (num_reps, li, final)) =>
          if num_reps <? 0 then None
          else option_map LApply (lin_counts 0 li final num_reps (combine (l_funcs l) cur))
        | _ => None
        end
    end.

(** lines 1241-1305; the symbols of the tape do not change and no block is removed *)
Definition apply_linear_rule {Sym} (l : linear_rule) (t : ctape Z Sym) : option (lin_result (ctape Z Sym)) :=
  match apply_linear_counts l (nums t) with
  | None => None
  | Some LBelow => Some LBelow
  | Some LInf => Some LInf
  | Some (LApply ns) => Some (LApply (mk (shape t) ns))
  end.

(** lines 1253-1258: whether the rule must not be used inside the proof of another
    ([exp_meta_linear_rules]) *)
Definition disallow_in_meta_rule (exp_meta : bool) (l : linear_rule) : bool :=
  if exp_meta then l_collatz l else true.

(** ** Exponential functions, Rule_Func.py lines 98-140 *)

(** [x -> (a b^{u x + v} + c)/d] *)
Record pow_func := PowFunc { p_base : Z; p_coef : Z; p_const : Z; p_denom : Z; p_uexp : Z; p_vexp : Z }.

(** the value at [x], lines 117-118 *)
Definition pow_value (f : pow_func) (x : Z) : Q :=
  ((inject_Z (p_coef f) * Qpower (inject_Z (p_base f)) (p_uexp f * x + p_vexp f) + inject_Z (p_const f))
   / inject_Z (p_denom f))%Q.

(** lines 124-140.  The floating point number [x_bound = (log_b(d x - c) - log_b a - v) / u]
    is replaced by the real number; [min > x_bound] is [a b^{u min + v} > d min - c], and
    [math.ceil] of it is the parameter [ceil_bound min].  [None]: still in the loop. *)
Fixpoint pow_compute_min (f : pow_func) (ceil_bound : Z -> Z) (fuel : nat) (min : Z) : option Z :=
  match fuel with
  | 0%nat => None
  | S fuel =>
    let dxc := p_denom f * min - p_const f in
    if dxc <=? 0 then Some min
    else if negb (Qle_bool (inject_Z (p_coef f) * Qpower (inject_Z (p_base f)) (p_uexp f * min + p_vexp f))
                           (inject_Z dxc))
    then Some min
    else pow_compute_min f ceil_bound fuel (ceil_bound min)
  end.
