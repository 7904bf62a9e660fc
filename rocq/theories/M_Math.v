(** * Model of [Code/Math.py] and [Code/Macro/Rule_Func.py]

    Python integers are [Z]; [//] and [%] are [Z.div] and [Z.modulo] (floor
    division in both).  Raised exceptions are [None].  [prec_mult] and [prec_add]
    (Math.py lines 77-94, floating point) are not modelled. *)
Require Import ZArith List Lia Bool Arith QArith Qround.
Import ListNotations.
Open Scope Z_scope.

(** ** Math.py *)

(** lines 11-14; the loop ends because [b] decreases *)
Fixpoint gcd_loop (fuel : nat) (a b : Z) : option Z :=
  match fuel with
  | O => None
  | S fuel => if b >? 0 then gcd_loop fuel b (a mod b) else Some a
  end.
(** lines 6-14 *)
Definition gcd (a b : Z) : option Z :=
  let a := Z.abs a in
  let b := Z.abs b in
  let '(a, b) := if b >? a then (b, a) else (a, b) in
  gcd_loop (S (Z.to_nat b)) a b.

(** lines 16-17; ZeroDivisionError is [None] *)
Definition lcm (a b : Z) : option Z :=
  match gcd a b with
  | Some g => if g =? 0 then None else Some (a * b / g)
  | None => None
  end.

(** lines 19-25.  The two floating point computations are parameters:
    [fsqrt n] is [int(math.sqrt(n))], [flog n m] is [int(round(math.log(n, m)))];
    [None] is a raised exception (negative or too large argument).  A negative [k]
    makes [m**k] a float below one, never equal to [n >= 4]. *)
Section IntPow.
  Variables (fsqrt : Z -> option Z) (flog : Z -> Z -> option Z).

  Fixpoint int_pow_loop (n : Z) (m : Z) (count : nat) : option (Z * Z) :=
    match count with
    | O => Some (n, 1)
    | S count =>
      match flog n m with
      | None => None
      | Some k => if (0 <=? k) && (m ^ k =? n) then Some (m, k) else int_pow_loop n (m + 1) count
      end
    end.
  Definition int_pow (n : Z) : option (Z * Z) :=
    match fsqrt n with
    | None => None
    | Some s => int_pow_loop n 2 (Z.to_nat (s + 1 - 2))
    end.
End IntPow.

(** lines 28-29 *)
Definition primes : list Z :=
  [2; 3; 5; 7; 11; 13; 17; 19; 23; 29; 31; 37; 41; 43; 47;
   53; 59; 61; 67; 71; 73; 79; 83; 89; 97].

(** lines 36-39 *)
Fixpoint strip_prime (fuel : nat) (p n : Z) (k : nat) : option (nat * Z) :=
  match fuel with
  | O => None
  | S fuel => if n mod p =? 0 then strip_prime fuel p (n / p) (S k) else Some (k, n)
  end.
(** lines 35-44 *)
Fixpoint prime_loop (ps : list Z) (n : Z) (res : list (Z * nat)) : option (list (Z * nat)) :=
  match ps with
  | [] => None                            (* NotImplementedError *)
  | p :: ps =>
    match strip_prime (S (Z.to_nat n)) p n 0 with
    | None => None
    | Some (k, n) =>
      let res := match k with O => res | _ => res ++ [(p, k)] end in
      if n =? 1 then Some res else prime_loop ps n res
    end
  end.
(** lines 31-44 *)
Definition prime_factor (n : Z) : option (list (Z * nat)) :=
  if n >? 0 then prime_loop primes n [] else None.

(** lines 47-61 *)
Fixpoint carmichael_loop (fs : list (Z * nat)) (res : Z) (max_k : nat) : option (Z * nat) :=
  match fs with
  | [] => Some (res, max_k)
  | (p, k) :: fs =>
    let lam_pk := if (p =? 2) && (Nat.leb 3 k) then 2 ^ (Z.of_nat k - 2)
                  else (p - 1) * p ^ (Z.of_nat k - 1) in
    match lcm res lam_pk with
    | Some res => carmichael_loop fs res (Nat.max max_k k)
    | None => None
    end
  end.
Definition carmichael (n : Z) : option (Z * nat) :=
  match prime_factor n with
  | Some fs => carmichael_loop fs 1 1
  | None => None
  end.

(** Python's three-argument [pow] for a non-negative exponent and a positive
    modulus; a negative exponent (modular inverse) is not modelled *)
Definition py_pow (b k m : Z) : option Z :=
  if k <? 0 then None else Some (b ^ k mod m).

(** lines 63-74; here [k] is an int.  (Line 65 computes [gcd(b, m)] and does not use it.) *)
Definition exp_mod (b k m : Z) : option Z :=
  match carmichael m with
  | None => None
  | Some (kp, k0) =>
    if k <? Z.of_nat k0 then py_pow b k m
    else py_pow b ((k - Z.of_nat k0) mod kp + Z.of_nat k0) m
  end.

(** ** Rule_Func.py *)

(** lines 11-12, for ints or Fractions; a zero divisor is excluded by the callers *)
Definition ceil_div (a b : Q) : Z := (Qfloor ((a - 1) / b) + 1)%Z.

(** lines 34-39 (Subtract_Func.max_reps) are [M_Prover.subtract_max_reps]; lines 41-42 *)
Definition subtract_apply_rep (const start num_reps : Z) : Z := start - num_reps * const.
(** lines 58-59 *)
Definition add_apply_rep (const start num_reps : Z) : Z := start + num_reps * const.

(** lines 77-84; ZeroDivisionError is [None] *)
Definition mult_compute_min (coef const : Q) (min : Z) : option Z :=
  if Qle_bool 0 const then Some min
  else if Qeq_bool (coef - 1) 0 then None
  else Some (Z.max min (ceil_div (- const) (coef - 1))).

(** lines 86-95 for ints and a coefficient of at least 2.  [m_n] is a formula integer; its
    arithmetic is replaced by that of its value (see C23).  The assertion of line 94
    fails if [m_n] is the int 1 (no repetition) or is multiplied by 0.  For [coef = 1]
    the formula integer 1^n is never built: its normalisation does not end. *)
Definition mult_apply_rep (coef const start num_reps : Z) : option Q :=
  let m := coef - 1 in
  if (num_reps =? 0) || (start * m + const =? 0) then None
  else Some (inject_Z ((start * m + const) * coef ^ num_reps - const) / inject_Z m)%Q.
