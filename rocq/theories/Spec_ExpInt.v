(** * What an exponential formula denotes *)
Require Import ZArith List.
From Verif Require Import M_Math M_ExpInt.
Import ListNotations.
Open Scope Z_scope.

(** the floating point functions used to find the smallest base are right: [math.sqrt] raises for a
    negative number and is not too small, and [round(math.log(n, m))] is right for powers of [m] *)
Record accurate (fl : floats) : Prop := {
  acc_neg : forall n, n < 0 -> fl_sqrt fl n = None;
  acc_sqrt : forall n s, 0 <= n -> fl_sqrt fl n = Some s -> 0 <= s /\ n < (s + 1) * (s + 1);
  acc_log : forall m k, 1 < m -> 0 <= k -> fl_log fl (m ^ k) m = Some k }.

Section Value.
  Variable fl : floats.

  (** the integer (a1 b^n1 + a2 b^n2 + ... + c) / d *)
  Fixpoint value (x : num fl) : Z :=
    match x with Int z => z | Exp x => value_e x end
  with value_e (x : expint fl) : Z :=
    match x with
    | EI ts c d _ _ _ _ => ((fix sum (ts : list (term fl)) : Z := match ts with [] => 0 | t :: ts => value_t t + sum ts end) ts + c) / d
    end
  with value_t (t : term fl) : Z :=
    match t with ET b c e _ _ => c * b ^ value e end.
  Definition sum (ts : list (term fl)) : Z := fold_right (fun t s => value_t t + s) 0 ts.

  (** a formula denotes an integer: bases at least 2, exponents not negative, the denominator positive and a
      divisor of the sum; and the stored attributes of small formulas are right *)
  Definition attr_ok (sg : Z) (w : tower fl) (v : Z) : Prop :=
    match w with
    | (O, TI z) => z = Z.abs v /\ sg = Z.sgn v
    | (O, TF _) => False
    | _ => True
    end.
  Fixpoint wf (x : num fl) : Prop :=
    match x with Int z => True | Exp x => wf_e x end
  with wf_e (x : expint fl) : Prop :=
    match x with
    | EI ts c d b _ w sg =>
      ts <> [] /\ 0 < d /\ (d | sum ts + c) /\
      (fix all (ts : list (term fl)) : Prop := match ts with [] => True | t :: ts => wf_t t /\ all ts end) ts /\
      attr_ok sg w ((sum ts + c) / d)
    end
  with wf_t (t : term fl) : Prop :=
    match t with
    | ET b c e _ w => 2 <= b /\ c <> 0 /\ wf e /\ 0 <= value e /\ attr_ok (Z.sgn c) w (c * b ^ value e)
    end.

  (** the content of a formula is 1, as [normalize] leaves it *)
  Definition reduced (x : expint fl) : Prop := fold_left (fun g t => Z.gcd g (t_coef t)) (e_terms x) (Z.gcd (e_const x) (e_denom x)) = 1.

  (** an exponent formula that is not evaluated exactly is as large as its tower value pretends, compared with
      the sizes of the moduli that occur; [m] bounds the modulus *)
  Fixpoint large_e (m : Z) (x : expint fl) : Prop :=
    match x with
    | EI ts _ d _ _ _ _ =>
      (fix all (ts : list (term fl)) : Prop := match ts with [] => True | t :: ts => large_t (m * d) t /\ all ts end) ts
    end
  with large_t (m : Z) (t : term fl) : Prop :=
    match t with
    | ET _ _ (Int _) _ _ => True
    | ET _ _ (Exp k) _ _ => match try_eval (Exp k) with Some (Some _) => True | _ => Z.log2 m <= value_e k end /\ large_e m k
    end.

  (** normal form: no smaller base is found, coefficients are not multiples of the base, the content is 1,
      and the stored attributes are those computed from the parts *)
  Fixpoint normal (x : num fl) : Prop :=
    match x with Int _ => True | Exp x => normal_e x end
  with normal_e (x : expint fl) : Prop :=
    match x with
    | EI ts c d b n w sg =>
      reduced (EI ts c d b n w sg) /\ eval_int ts c d = Some (w, sg) /\
      (fix all (ts : list (term fl)) : Prop := match ts with [] => True | t :: ts => normal_t t /\ all ts end) ts
    end
  with normal_t (t : term fl) : Prop :=
    match t with
    | ET b c e n w => (forall p, int_pow (fl_sqrt fl) (fl_log fl) b = Some p -> p = (b, 1)) /\ c mod b <> 0 /\
                      eval_term b c e = Some w /\ normal e
    end.
End Value.
Arguments value {fl}. Arguments value_e {fl}. Arguments value_t {fl}. Arguments sum {fl}. Arguments wf {fl}. Arguments wf_e {fl}. Arguments wf_t {fl}. Arguments attr_ok {fl}.
Arguments reduced {fl}. Arguments large_e {fl}. Arguments large_t {fl}.
Arguments normal {fl}. Arguments normal_e {fl}. Arguments normal_t {fl}.

(** the numbers that the operations build from integers, with the integers that they stand for *)
Inductive built (fl : floats) : num fl -> Z -> Prop :=
| b_int z : built fl (Int z) z
| b_pow fuel b e x n : built fl e n -> 0 <= n -> exp_int fuel b e = Some x -> built fl x (b ^ n)
| b_add fuel x y z u v : built fl x u -> built fl y v -> add fuel x y = Some z -> built fl z (u + v)
| b_sub fuel x y z u v : built fl x u -> built fl y v -> sub fuel x y = Some z -> built fl z (u - v)
| b_mul fuel x y z u v : built fl x u -> built fl y v -> mul fuel x y = Some z -> built fl z (u * v)
| b_neg fuel x z u : built fl x u -> neg fuel x = Some z -> built fl z (- u)
| b_div fuel x y z q v : built fl (Exp x) (q * v) -> built fl y v -> truediv fuel x y = Some z -> built fl z q.
