(** * Model of [Code/Exp_Int.py]: integers given by exponential formulas

    Python integers are [Z]; a raised exception is [None].  Only constant formulas are modelled: exponents
    are integers or again formulas, not expressions with variables.  Operands are integers or formulas,
    not Fractions or infinities.  Objects are values that carry the attributes computed when they
    are constructed.  The text attributes (formula_str, tex_formula) are left out.

    Floating point enters only through [tower_value]; the floating point results are parameters, so
    everything proved holds whatever they are.  [fuel] bounds the nesting of constructor calls. *)
Require Import ZArith List Bool.
From Verif Require Import M_Math.
Import ListNotations.
Open Scope Z_scope.

(** lines 11-15 *)
Definition EXP_THRESHOLD : Z := 1000.
Definition MAX_DEPTH : Z := 10000.

(** the second component of a tower value: an int or a float *)
Inductive top_of (F : Type) := TI (z : Z) | TF (f : F).
Arguments TI {F} z.
Arguments TF {F} f.
(** the floating point results *)
Record floats := Floats {
  flt : Type;                                                   (* floats *)
  fl_sqrt : Z -> option Z; fl_log : Z -> Z -> option Z;         (* see [M_Math.int_pow] *)
  fl_cmp : top_of flt -> top_of flt -> comparison;              (* comparison when a float is involved *)
  fl_ge0 : flt -> bool;                                         (* [top >= 0] for a float *)
  (* lines 178-181: [abs(prec_add(prec_mult(e, log10(base)), log10(abs(coef))))] *)
  fl_term : Z -> Z -> Z -> option (top_of flt);
  (* line 325: [prec_add(top, -log10(denom))] *)
  fl_denom : top_of flt -> Z -> option (top_of flt) }.

Section ExpInt.
  Variable fl : floats.
  Definition top := top_of (flt fl).
  Notation fsqrt := (fl_sqrt fl). Notation flog := (fl_log fl). Notation fcmp := (fl_cmp fl).
  Notation fge0 := (fl_ge0 fl). Notation prec_term := (fl_term fl). Notation prec_denom := (fl_denom fl).

  Definition top_cmp (a b : top) : comparison :=
    match a, b with TI x, TI y => x ?= y | _, _ => fcmp a b end.
  Definition top_ge0 (a : top) : bool := match a with TI z => 0 <=? z | TF f => fge0 f end.

  (** a tower value is a tuple (height, top), compared as Python compares tuples *)
  Definition tower : Type := nat * top.
  Definition tower_cmp (a b : tower) : comparison :=
    match Nat.compare (fst a) (fst b) with Eq => top_cmp (snd a) (snd b) | c => c end.
  Definition tower_gt (a b : tower) : bool := match tower_cmp a b with Gt => true | _ => false end.
  Definition tower_ge (a b : tower) : bool := match tower_cmp a b with Lt => false | _ => true end.
  Definition tower_eq (a b : tower) : bool := match tower_cmp a b with Eq => true | _ => false end.

  (** an int or a formula *)
  Inductive num := Int (z : Z) | Exp (x : expint)
  (** ExpInt: terms, const, denom, base, depth, tower_value, sign *)
  with expint := EI (terms : list term) (const denom base depth : Z) (tw : tower) (sg : Z)
  (** ExpTerm: base, coef, exponent, depth, tower_value; its sign is that of the coefficient *)
  with term := ET (base coef : Z) (exponent : num) (depth : Z) (tw : tower).

  Definition e_terms x := let '(EI ts _ _ _ _ _ _) := x in ts.
  Definition e_const x := let '(EI _ c _ _ _ _ _) := x in c.
  Definition e_denom x := let '(EI _ _ d _ _ _ _) := x in d.
  Definition e_base x := let '(EI _ _ _ b _ _ _) := x in b.
  Definition e_depth x := let '(EI _ _ _ _ n _ _) := x in n.
  Definition e_tower x := let '(EI _ _ _ _ _ w _) := x in w.
  Definition e_sign x := let '(EI _ _ _ _ _ _ s) := x in s.
  Definition t_base t := let '(ET b _ _ _ _) := t in b.
  Definition t_coef t := let '(ET _ c _ _ _) := t in c.
  Definition t_exponent t := let '(ET _ _ e _ _) := t in e.
  Definition t_depth t := let '(ET _ _ _ n _) := t in n.
  Definition t_tower t := let '(ET _ _ _ _ w) := t in w.
  Definition t_sign t := Z.sgn (t_coef t).

  (** lines 102-110, 112-116, 118-124 *)
  Definition tower_value (x : num) : tower := match x with Int z => (O, TI (Z.abs z)) | Exp x => e_tower x end.
  Definition sign (x : num) : Z := match x with Int z => Z.sgn z | Exp x => e_sign x end.
  Definition exp_int_depth (x : num) : Z := match x with Int _ => 0 | Exp x => e_depth x end.

  (** lines 55-68, try_eval, of an object with a sign and a tower value; the outer [None] is the assertion.
      [sign * top] is an int: a float at height 0 is not modelled (see [eval_term]) *)
  Definition try_eval_attr (sg : Z) (w : tower) : option (option Z) :=
    if top_ge0 (snd w) then
      match w with
      | (O, TI z) => Some (Some (sg * z))
      | (O, TF _) => None
      | _ => Some None
      end
    else None.
  Definition try_eval_term (t : term) : option (option Z) := try_eval_attr (t_sign t) (t_tower t).
  Definition try_eval (x : num) : option (option Z) :=
    match x with Int z => Some (Some z) | Exp x => try_eval_attr (e_sign x) (e_tower x) end.

  (** lines 78-89, struct_eq *)
  Fixpoint struct_eq (a b : num) : bool :=
    match a, b with
    | Int x, Int y => x =? y
    | Exp x, Exp y => struct_eq_e x y
    | _, _ => false
    end
  with struct_eq_e (x y : expint) : bool :=
    match x, y with
    | EI ts c d _ _ _ _, EI us c' d' _ _ _ _ =>
      (c =? c') && (d =? d') &&
      (fix all (ts us : list term) : bool :=
         match ts, us with
         | [], [] => true
         | t :: ts, u :: us => struct_eq_t t u && all ts us
         | _, _ => false
         end) ts us
    end
  with struct_eq_t (t u : term) : bool :=
    match t, u with
    | ET b c e _ _, ET b' c' e' _ _ => (b =? b') && (c =? c') && struct_eq e e'
    end.

  (** lines 157-181, eval of a term.  A negative exponent gives a float power in Python; this case is not
      modelled (an exception here) *)
  Definition eval_term (base coef : Z) (exponent : num) : option tower :=
    match try_eval exponent with
    | None => None
    | Some None | Some (Some 0) =>
      match exponent with
      | Int _ => None                               (* assert, line 164 *)
      | Exp k => if top_ge0 (snd (e_tower k)) then Some (S (fst (e_tower k)), snd (e_tower k)) else None
      end
    | Some (Some e) =>
      if e <? 0 then None
      else if e <? EXP_THRESHOLD then Some (O, TI (Z.abs (coef * base ^ e)))
      else match prec_term e base coef with Some w => Some (1%nat, w) | None => None end
    end.

  (** lines 153-155, the loop; an infinite loop (base 1) ends as an exception *)
  Fixpoint norm_loop (add1 : num -> option num) (fuel : nat) (base coef : Z) (exponent : num) : option (Z * num) :=
    match fuel with
    | O => None
    | S fuel =>
      if base =? 0 then None                        (* ZeroDivisionError *)
      else if coef mod base =? 0 then
        match add1 exponent with Some e => norm_loop add1 fuel base (coef / base) e | None => None end
      else Some (coef, exponent)
    end.

  (** lines 286-288 *)
  Fixpoint common_loop (common : Z) (ts : list term) : option Z :=
    match ts with
    | [] => Some common
    | t :: ts => match gcd common (t_coef t) with Some g => common_loop g ts | None => None end
    end.

  (** max of lines 308-311: the first of the greatest *)
  Definition tower_max (ws : list tower) : tower :=
    match ws with
    | [] => (O, TI 0)
    | w :: ws => fold_left (fun a b => if tower_gt b a then b else a) ws w
    end.
  (** lines 295-326, eval of a formula: tower_value and sign *)
  Definition eval_int (ts : list term) (const denom : Z) : option (tower * Z) :=
    match (fix all ts := match ts with
                         | [] => Some (Some [])
                         | t :: ts =>
                           match try_eval_term t, all ts with
                           | Some v, Some vs =>
                             Some (match v, vs with
                                   | Some 0, _ => None
                                   | Some v, Some vs => Some (v :: vs)
                                   | _, _ => None
                                   end)
                           | _, _ => None
                           end
                         end) ts with
    | None => None
    | Some (Some vs) =>
      let value := (fold_right Z.add 0 vs + const) / denom in
      Some ((O, TI (Z.abs value)), Z.sgn value)
    | Some None =>
      let pos := tower_max (map t_tower (filter (fun t => 0 <? t_sign t) ts)) in
      let neg := tower_max (map t_tower (filter (fun t => t_sign t <? 0) ts)) in
      if tower_eq pos neg then None else           (* ExpIntException *)
      let w := if tower_gt neg pos then neg else pos in   (* max(pos, neg) *)
      let sg := if tower_gt neg pos then -1 else 1 in
      if denom =? 1 then Some (w, sg)
      else match fst w with
           | O => None                              (* assert, line 323 *)
           | S O => match prec_denom (snd w) denom with Some x => Some ((1%nat, x), sg) | None => None end
           | _ => Some (w, sg)
           end
    end.

  Definition omap {A B} (f : A -> option B) : list A -> option (list B) :=
    fix go l := match l with
                | [] => Some []
                | a :: l => match f a, go l with Some b, Some r => Some (b :: r) | _, _ => None end
                end.

  (** lines 129-155, ExpTerm.__init__; lines 254-293, ExpInt.__init__; multiplication and addition of an
      integer to an exponent (lines 429-432 and 398-401 for formulas) *)
  Fixpoint mk_term (fuel : nat) (base coef : Z) (exponent : num) : option term :=
    match fuel with
    | O => None
    | S fuel =>
      if coef =? 0 then None else
      match int_pow fsqrt flog base with
      | None => None
      | Some (n, k) =>
        match (if 1 <? k then mul_int fuel exponent k else Some exponent) with
        | None => None
        | Some exponent =>
          let base := if 1 <? k then n else base in
          match norm_loop (fun e => add_int fuel e 1) (Z.to_nat (Z.log2 (Z.abs coef)) + 2) base coef exponent with
          | None => None
          | Some (coef, exponent) =>
            match eval_term base coef exponent with
            | None => None
            | Some w => Some (ET base coef exponent (exp_int_depth exponent + 1) w)
            end
          end
        end
      end
    end
  with mk_expint (fuel : nat) (ts : list term) (const denom : Z) : option expint :=
    match fuel with
    | O => None
    | S fuel =>
      match ts with
      | [] => None                                  (* assert terms *)
      | t0 :: _ =>
        match gcd const denom with
        | None => None
        | Some g =>
          let common := Z.abs g * Z.sgn denom in
          match (if common =? 1 then Some 1 else common_loop common ts) with
          | None => None
          | Some common =>
            match (if common =? 1 then Some ts
                   else if common =? 0 then None    (* ZeroDivisionError *)
                   else omap (fun t => if t_coef t mod common =? 0
                                       then mk_term fuel (t_base t) (t_coef t / common) (t_exponent t) else None) ts) with
            | None => None
            | Some ts' =>
              let const := if common =? 1 then const else const / common in
              let denom := if common =? 1 then denom else denom / common in
              if 0 <? denom then
                let depth := fold_right Z.max 0 (map t_depth ts) in
                if MAX_DEPTH <? depth then None else
                match eval_int ts' const denom with
                | None => None
                | Some (w, sg) =>
                  if forallb (fun t => t_base t =? t_base t0) ts then Some (EI ts' const denom (t_base t0) depth w sg) else None
                end
              else None                             (* assert, line 293 *)
            end
          end
        end
      end
    end
  with mul_int (fuel : nat) (x : num) (k : Z) : option num :=
    match fuel with
    | O => None
    | S fuel =>
      match x with
      | Int z => Some (Int (z * k))
      | Exp x =>
        if k =? 0 then Some (Int 0) else
        match omap (fun t => mk_term fuel (t_base t) (t_coef t * k) (t_exponent t)) (e_terms x) with
        | Some ts => match mk_expint fuel ts (e_const x * k) (e_denom x) with Some y => Some (Exp y) | None => None end
        | None => None
        end
      end
    end
  with add_int (fuel : nat) (x : num) (k : Z) : option num :=
    match fuel with
    | O => None
    | S fuel =>
      match x with
      | Int z => Some (Int (z + k))
      | Exp x => match mk_expint fuel (e_terms x) (e_const x + k * e_denom x) (e_denom x) with
                 | Some y => Some (Exp y) | None => None end
      end
    end.

  (** lines 19-28, exp_int *)
  Definition exp_int (fuel : nat) (base : Z) (exponent : num) : option num :=
    match exponent with
    | Int 0 => Some (Int 1)
    | _ => match mk_term fuel base 1 exponent with
           | Some t => match mk_expint fuel [t] 0 1 with Some x => Some (Exp x) | None => None end
           | None => None
           end
    end.

  (** lines 207-210 and 212-217 are part of [mul_int] and [mk_expint] above *)
  Definition mul_term_int (fuel : nat) (t : term) (n : Z) : option term :=
    if n =? 0 then None else mk_term fuel (t_base t) (t_coef t * n) (t_exponent t).

  (** lines 397-419, the sum of formulas; with [normalize_terms], lines 225-249 *)

  (** sorted(..., reverse=True) of line 236: stable, greatest first *)
  Fixpoint insert_term (t : term) (l : list term) : list term :=
    match l with
    | [] => [t]
    | u :: l => if tower_gt (tower_value (t_exponent t)) (tower_value (t_exponent u)) then t :: u :: l else u :: insert_term t l
    end.
  Definition sort_terms (ts : list term) : list term := fold_left (fun l t => insert_term t l) ts [].
  (** lines 236-248; [prev] is (prev_base, prev_coef, prev_exponent) *)
  Fixpoint merge_terms (fuel : nat) (prev : option (Z * Z * num)) (ts : list term) : option (list term) :=
    let flush := match prev with
                 | Some (b, c, e) => if c =? 0 then Some [] else match mk_term fuel b c e with Some t => Some [t] | None => None end
                 | None => Some []
                 end in
    match ts with
    | [] => flush
    | t :: ts =>
      match (match prev with Some (b, c, e) => if struct_eq (t_exponent t) e then Some (b, c, e) else None | None => None end) with
      | Some (b, c, e) => if t_base t =? b then merge_terms fuel (Some (b, c + t_coef t, e)) ts else None
      | None =>
        match flush, merge_terms fuel (Some (t_base t, t_coef t, t_exponent t)) ts with
        | Some l, Some r => Some (l ++ r)
        | _, _ => None
        end
      end
    end.
  Definition normalize_terms (fuel : nat) (ts : list term) : option (list term) :=
    match ts with
    | [] => None
    | t0 :: _ => if forallb (fun t => t_base t =? t_base t0) ts then merge_terms fuel None (sort_terms ts) else None
    end.

  Definition wrap (x : option expint) : option num := match x with Some x => Some (Exp x) | None => None end.

  (** __add__ *)
  Definition add_exp (fuel : nat) (x y : expint) : option num :=
    match lcm (e_denom x) (e_denom y) with
    | None => None
    | Some d =>
      let ns := d / e_denom x in
      let no := d / e_denom y in
      match omap (fun t => mul_term_int fuel t ns) (e_terms x), omap (fun t => mul_term_int fuel t no) (e_terms y) with
      | Some ts, Some us =>
        match normalize_terms fuel (ts ++ us) with
        | None => None
        | Some [] => if d =? 0 then None else Some (Int ((ns * e_const x + no * e_const y) / d))
        | Some terms => wrap (mk_expint fuel terms (ns * e_const x + no * e_const y) d)
        end
      | _, _ => None
      end
    end.
  Definition add (fuel : nat) (x y : num) : option num :=
    match x, y with
    | Int a, Int b => Some (Int (a + b))
    | Exp _, Int b => add_int fuel x b
    | Int a, Exp _ => add_int fuel y a                   (* __radd__ *)
    | Exp x, Exp y => add_exp fuel x y
    end.

  (** lines 219-223, mul_term *)
  Definition mul_term (fuel : nat) (t u : term) : option term :=
    if t_base t =? t_base u then
      match add fuel (t_exponent t) (t_exponent u) with
      | Some e => mk_term fuel (t_base t) (t_coef t * t_coef u) e
      | None => None
      end
    else None.
  Definition oapp {A} (a b : option (list A)) : option (list A) :=
    match a, b with Some x, Some y => Some (x ++ y) | _, _ => None end.
  (** lines 434-451 *)
  Definition mul_exp (fuel : nat) (x y : expint) : option num :=
    if e_base x =? e_base y then
      let rows := map (fun t =>
                         oapp (if e_const y =? 0 then Some [] else omap (fun t => mul_term_int fuel t (e_const y)) [t])
                              (omap (mul_term fuel t) (e_terms y))) (e_terms x) in
      let last := if e_const x =? 0 then Some [] else omap (fun t => mul_term_int fuel t (e_const x)) (e_terms y) in
      match oapp (fold_right oapp (Some []) rows) last with
      | None => None
      | Some ts =>
        match normalize_terms fuel ts with
        | None => None
        | Some [] => Some (Int (e_const x * e_const y / (e_denom x * e_denom y)))
        | Some terms => wrap (mk_expint fuel terms (e_const x * e_const y) (e_denom x * e_denom y))
        end
      end
    else None.
  (** lines 70-76, try_simplify *)
  Definition try_simplify (x : num) : option num :=
    match try_eval x with Some (Some z) => Some (Int z) | Some None => Some x | None => None end.
  (** lines 423-451, __mul__ and __rmul__ *)
  Definition mul (fuel : nat) (x y : num) : option num :=
    match x, y with
    | Int a, Int b => Some (Int (a * b))
    | Int a, Exp _ => mul_int fuel y a
    | Exp x, _ =>
      match try_simplify y with
      | Some (Int b) => mul_int fuel (Exp x) b
      | Some (Exp y) => mul_exp fuel x y
      | None => None
      end
    end.
  (** lines 498-503 *)
  Definition neg (fuel : nat) (x : num) : option num :=
    match x with Int z => Some (Int (- z)) | Exp _ => mul_int fuel x (-1) end.
  Definition sub (fuel : nat) (x y : num) : option num :=
    match x with
    | Int a => match y with
               | Int b => Some (Int (a - b))
               | Exp _ => match neg fuel y with Some y => add fuel y x | None => None end    (* __rsub__ *)
               end
    | Exp _ => match neg fuel y with Some y => add fuel x y | None => None end
    end.

  (** lines 458-463, __truediv__ of a formula *)
  Definition truediv (fuel : nat) (x : expint) (y : num) : option num :=
    match try_eval y with
    | Some (Some k) => if k =? 0 then None else wrap (mk_expint fuel (e_terms x) (e_const x) (e_denom x * k))
    | _ => None
    end.

  (** lines 467-507, comparisons of a formula with an int or a formula.  [fuel] is passed to the
      constructions of negatives; [n] bounds the calls of each other *)
  Fixpoint gt (n fuel : nat) (x : expint) (y : num) : option bool :=
    match n with
    | O => None
    | S n =>
      if e_sign x <? 0 then
        match neg fuel (Exp x), neg fuel y with
        | Some (Exp x), Some y => option_map negb (ge n fuel x y)
        | _, _ => None
        end
      else if sign y <? 0 then Some true
      else Some (tower_gt (e_tower x) (tower_value y))
    end
  with ge (n fuel : nat) (x : expint) (y : num) : option bool :=
    match n with
    | O => None
    | S n =>
      if e_sign x <? 0 then
        match neg fuel (Exp x), neg fuel y with
        | Some (Exp x), Some y => option_map negb (gt n fuel x y)
        | _, _ => None
        end
      else if sign y <? 0 then Some true
      else Some (tower_ge (e_tower x) (tower_value y))
    end.
  Definition lt (n fuel : nat) (x : expint) (y : num) : option bool := option_map negb (ge n fuel x y).
  Definition le (n fuel : nat) (x : expint) (y : num) : option bool := option_map negb (gt n fuel x y).

  (** lines 364-381, __mod__ with an integer modulus (other_int); 204-205, ExpTerm.mod; Math.py lines 63-74,
      exp_mod, with an exponent that is an int or a formula *)
  Fixpoint mod_int (fuel : nat) (x : expint) (other : Z) : option Z :=
    match fuel with
    | O => None
    | S fuel =>
      if other =? 0 then None
      else if other =? 1 then Some 0
      else
        let m := e_denom x * other in
        match omap (fun t =>
          match (match carmichael m with
                 | None => None
                 | Some (kp, k0) =>
                   match t_exponent t with
                   | Int k => exp_mod (t_base t) k m
                   | Exp k =>
                     match lt 3 fuel k (Int (Z.of_nat k0)) with
                     | Some false =>
                       match add_int fuel (Exp k) (- Z.of_nat k0) with
                       | Some (Exp k') => match mod_int fuel k' kp with
                                          | Some r => py_pow (t_base t) (r + Z.of_nat k0) m
                                          | None => None
                                          end
                       | _ => None
                       end
                     | _ => None                    (* pow with a formula: TypeError *)
                     end
                   end
                 end) with
          | Some r => Some (r * t_coef t mod m)
          | None => None
          end) (e_terms x) with
        | None => None
        | Some rs =>
          let terms_rem := fold_right Z.add 0 rs mod m in
          let rd := (terms_rem + e_const x) mod m in
          if rd mod e_denom x =? 0 then Some (rd / e_denom x mod other) else None
        end
    end.
  Definition mod_num (fuel : nat) (x : expint) (y : num) : option Z :=
    match try_eval y with Some (Some k) => mod_int fuel x k | _ => None end.
  (** lines 384-394, __divmod__ and __floordiv__ *)
  Definition floordiv (fuel : nat) (x : expint) (y : num) : option num :=
    match mod_num fuel x y with
    | Some r => match sub fuel (Exp x) (Int r) with Some (Exp z) => truediv fuel z y | _ => None end
    | None => None
    end.
End ExpInt.
Arguments Int {fl} z. Arguments Exp {fl} x. Arguments EI {fl}. Arguments ET {fl}.
Arguments e_terms {fl}. Arguments e_const {fl}. Arguments e_denom {fl}. Arguments e_base {fl}. Arguments e_depth {fl}.
Arguments e_tower {fl}. Arguments e_sign {fl}. Arguments t_base {fl}. Arguments t_coef {fl}. Arguments t_exponent {fl}.
Arguments t_depth {fl}. Arguments t_tower {fl}. Arguments t_sign {fl}. Arguments tower_value {fl}. Arguments sign {fl}.
Arguments try_eval {fl}. Arguments try_eval_term {fl}. Arguments try_eval_attr {fl}. Arguments struct_eq {fl}. Arguments tower_max {fl}. Arguments tower_gt {fl}.
Arguments mk_term {fl}. Arguments mk_expint {fl}. Arguments mul_int {fl}. Arguments add_int {fl}. Arguments eval_term {fl}. Arguments eval_int {fl}.
Arguments exp_int {fl}. Arguments add {fl}. Arguments mul {fl}. Arguments neg {fl}. Arguments sub {fl}. Arguments truediv {fl}.
Arguments gt {fl}. Arguments ge {fl}. Arguments lt {fl}. Arguments le {fl}. Arguments mod_int {fl}. Arguments mod_num {fl}. Arguments floordiv {fl}.
Arguments sort_terms {fl}. Arguments insert_term {fl}. Arguments merge_terms {fl}. Arguments normalize_terms {fl}. Arguments add_exp {fl}. Arguments mul_exp {fl}.
Arguments mul_term {fl}. Arguments mul_term_int {fl}. Arguments norm_loop {fl}. Arguments common_loop {fl}. Arguments omap {A B}. Arguments wrap {fl}. Arguments try_simplify {fl}.
Arguments struct_eq_e {fl}. Arguments struct_eq_t {fl}. Arguments exp_int_depth {fl}. Arguments top_ge0 {fl}.
