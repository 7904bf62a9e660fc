(** * Model of [Code/Algebraic_Expression.py]

    Scalars (Python int or Fraction) are rationals [Q]; Python compares them by
    value, here [Qeq_bool].  Simplification: coefficients that are themselves
    formula integers or expressions (only produced by recursive rules) are not
    modelled.  [ValueError]/[BadOperation]/assertion failures are [None]. *)
Require Import ZArith List Lia Bool Arith QArith.
Import ListNotations.
Open Scope Q_scope.

(** lines 99-103: a variable (its id) to a power; lines 133-137: a term *)
Definition var_power := (nat * nat)%type.
Record term := Term { t_vars : list var_power; t_coef : Q }.
(** lines 170-175 *)
Record expr := Expr { e_terms : list term; e_const : Q }.

(** a Python number or Expression *)
Inductive val := VS (q : Q) | VE (e : expr).

Definition qz (q : Q) : bool := Qeq_bool q 0.
Definition qlt (a b : Q) : bool := negb (Qle_bool b a).

(** line 175 and Common.is_const *)
Definition e_is_const (e : expr) : bool := match e_terms e with [] => true | _ => false end.

(** lines 364-390 *)
Fixpoint compare_vps (v1 v2 : list var_power) : comparison :=
  match v1, v2 with
  | (x1, p1) :: v1, (x2, p2) :: v2 =>
    if Nat.ltb x1 x2 then Lt else if Nat.ltb x2 x1 then Gt
    else if Nat.ltb p1 p2 then Lt else if Nat.ltb p2 p1 then Gt
    else compare_vps v1 v2
  | _, _ => Eq
  end.
Definition compare_terms (t1 t2 : term) : comparison :=
  if Nat.ltb (length (t_vars t1)) (length (t_vars t2)) then Lt
  else if Nat.ltb (length (t_vars t2)) (length (t_vars t1)) then Gt
  else compare_vps (t_vars t1) (t_vars t2).

(** lines 341-362 *)
Fixpoint term_sum (ts1 : list term) : list term -> list term :=
  fix inner (ts2 : list term) : list term :=
  match ts1, ts2 with
  | [], _ => ts2
  | _, [] => ts1
  | t1 :: r1, t2 :: r2 =>
    match compare_terms t1 t2 with
    | Eq => if qz (t_coef t1 + t_coef t2) then term_sum r1 r2
            else Term (t_vars t1) (t_coef t1 + t_coef t2) :: term_sum r1 r2
    | Lt => t1 :: term_sum r1 ts2
    | Gt => t2 :: inner r2
    end
  end.

(** lines 186-190 *)
Definition e_add (a b : expr) : expr :=
  Expr (term_sum (e_terms a) (e_terms b)) (e_const a + e_const b).
Definition e_addS (a : expr) (q : Q) : expr := Expr (e_terms a) (e_const a + q).

(** lines 196-200, scalar factor *)
Definition e_mulS (a : expr) (q : Q) : expr :=
  if qz q then Expr [] 0
  else Expr (map (fun t => Term (t_vars t) (t_coef t * q)) (e_terms a)) (e_const a * q).

(** lines 404-421 *)
Fixpoint vars_prod (v1 : list var_power) : list var_power -> list var_power :=
  fix inner (v2 : list var_power) : list var_power :=
  match v1, v2 with
  | [], _ => v2
  | _, [] => v1
  | (x1, p1) :: r1, (x2, p2) :: r2 =>
    if Nat.ltb x1 x2 then (x1, p1) :: vars_prod r1 v2
    else if Nat.ltb x2 x1 then (x2, p2) :: inner r2
    else (x1, (p1 + p2)%nat) :: vars_prod r1 r2
  end.

(** lines 392-402 *)
Definition expr_prod (a b : expr) : expr :=
  let acc :=
    fold_left (fun acc t1 =>
      let acc := fold_left (fun acc t2 =>
           e_add acc (Expr [Term (vars_prod (t_vars t1) (t_vars t2)) (t_coef t1 * t_coef t2)] 0))
           (e_terms b) acc in
      e_add acc (e_mulS (Expr [t1] 0) (e_const b))) (e_terms a) (Expr [] 0) in
  e_add acc (e_mulS b (e_const a)).

(** Python [a + b], [a * b], [-a], [a - b] with mixed operands: lines 186-224 *)
Definition v_add (a b : val) : val :=
  match a, b with
  | VS x, VS y => VS (x + y)
  | VE e, VS y => VE (e_addS e y)
  | VS x, VE e => VE (e_addS e x)
  | VE e, VE f => VE (e_add e f)
  end.
Definition v_mul (a b : val) : val :=
  match a, b with
  | VS x, VS y => VS (x * y)
  | VE e, VS y => VE (e_mulS e y)
  | VS x, VE e => VE (e_mulS e x)
  | VE e, VE f => VE (expr_prod e f)
  end.
Definition v_neg (a : val) : val :=
  match a with VS x => VS (- x) | VE e => VE (e_mulS e (-1)) end.
Definition v_sub (a b : val) : val := v_add a (v_neg b).

(** lines 202-208; for a scalar base Python's own [**] *)
Fixpoint e_pow (a : expr) (n : nat) : val :=
  match n with O => VS 1 | S n => v_mul (e_pow a n) (VE a) end.
Definition v_pow (a : val) (n : nat) : val :=
  match a with
  | VS x => VS (Qpower x (Z.of_nat n))
  | VE e => e_pow e n
  end.

(** lines 226-235; division by a Python int.  ZeroDivisionError is [None]. *)
Definition e_div (a : expr) (z : Z) : option expr :=
  if (z =? 1)%Z then Some a
  else if (z =? 0)%Z then None
  else Some (Expr (map (fun t => Term (t_vars t) (t_coef t / inject_Z z)) (e_terms a))
                  (e_const a / inject_Z z)).

(** lines 427-443 *)
Definition var_expr (x : nat) : expr := Expr [Term [(x, 1%nat)] 1] 0.
Definition var_plus (x : nat) (c : Q) : expr := Expr [Term [(x, 1%nat)] 1] c.

(** a substitution: Python dict from variables to numbers or expressions *)
Definition subs := list (nat * val).
Fixpoint subs_get (x : nat) (s : subs) : option val :=
  match s with
  | [] => None
  | (y, v) :: s => if Nat.eqb x y then Some v else subs_get x s
  end.

(** lines 111-119 *)
Definition vp_subst (s : subs) (vp : var_power) : val :=
  let '(x, p) := vp in
  match subs_get x s with
  | Some v => if Nat.eqb p 1 then v else v_pow v p
  | None => e_pow (var_expr x) p
  end.

(** lines 148-150: [reduce] raises TypeError on an empty list *)
Definition term_subst (s : subs) (t : term) : option val :=
  match map (vp_subst s) (t_vars t) with
  | [] => None
  | v :: vs => Some (v_mul (fold_left v_mul vs v) (VS (t_coef t)))
  end.

(** [sum([...])]: starts from the int 0 *)
Fixpoint terms_subst (s : subs) (ts : list term) (acc : val) : option val :=
  match ts with
  | [] => Some acc
  | t :: ts => match term_subst s t with
               | Some v => terms_subst s ts (v_add acc v)
               | None => None
               end
  end.
(** lines 244-247 ([simp_frac] does not change the value) *)
Definition e_subst (e : expr) (s : subs) : option val :=
  match terms_subst s (e_terms e) (VS 0) with
  | Some v => Some (v_add v (VS (e_const e)))
  | None => None
  end.

(** lines 35-40 and 60-64 *)
Definition v_is_const (v : val) : bool := match v with VS _ => true | VE e => e_is_const e end.
Definition as_const (v : val) : Q := match v with VS q => q | VE e => e_const e end.
Definition v_subst (v : val) (s : subs) : option val :=
  match v with
  | VS q => Some (VS q)
  | VE e => if e_is_const e then Some (VS (e_const e)) else e_subst e s
  end.

(** lines 42-46 and 250-255; [None] stands for -math.inf *)
Definition v_min_val (v : val) : option Q :=
  match v with
  | VS q => Some q
  | VE e => if existsb (fun t => qlt (t_coef t) 0) (e_terms e) then None else Some (e_const e)
  end.

(** lines 48-52 *)
Definition always_ge (a b : val) : bool :=
  match v_min_val (v_sub a b) with Some q => Qle_bool 0 q | None => false end.
Definition always_gt (a b : val) : bool :=
  match v_min_val (v_sub a b) with Some q => qlt 0 q | None => false end.

(** lines 257-268, [self == other] for a finite [other] *)
Definition e_eqb (a : expr) (b : val) : bool :=
  match v_sub (VE a) b with
  | VS q => qz q
  | VE d => qz (e_const d) && forallb (fun t => qz (t_coef t)) (e_terms d)
  end.

(** lines 273-289 *)
Definition is_var_plus_const (e : expr) : bool :=
  match e_terms e with
  | [t] => Qeq_bool (t_coef t) 1 &&
           match t_vars t with [(_, p)] => Nat.eqb p 1 | _ => false end
  | _ => false
  end.
Definition variable_restricted (e : expr) : option nat :=
  if is_var_plus_const e then
    match e_terms e with
    | [t] => match t_vars t with [(x, _)] => Some x | _ => None end
    | _ => None
    end
  else None.

(** lines 278-282 *)
Definition as_strictly_linear (e : expr) : option (nat * Q * Q) :=
  match e_terms e with
  | [t] => match t_vars t with
           | [(x, p)] => if Nat.eqb p 1 then Some (x, t_coef t, e_const e) else None
           | _ => None
           end
  | _ => None
  end.

(** lines 54-58, 291-298: the set of variables, here a list with repetitions *)
Definition e_variables (e : expr) : list nat :=
  flat_map (fun t => map fst (t_vars t)) (e_terms e).
Definition v_variables (v : val) : list nat :=
  match v with VS _ => [] | VE e => if e_is_const e then [] else e_variables e end.
