(** * C19-C22: closed form sums, rule functions, integer helpers, modular powers *)
Require Import ZArith Znumtheory Zpow_facts List Lia Bool Arith QArith Qpower Qround Lqa.
From Verif Require Import M_Expr P_Expr Prop_Expr M_Prover P_Lin P_Series M_Math P_Math.
Import ListNotations.

(** ** C19 *)
Open Scope Q_scope.

Lemma run_srt p : forall v, run p = Some v -> val_srt v.
Proof.
  induction p; intros v; cbn [run].
  - intros [= <-]. exact I.
  - intros [= <-]. apply var_expr_srt.
  - destruct (run p1) as [a|]; [|discriminate]. destruct (run p2) as [b|]; [|discriminate].
    intros [= <-]. apply v_add_srt; auto.
  - destruct (run p1) as [a|]; [|discriminate]. destruct (run p2) as [b|]; [|discriminate].
    intros [= <-]. apply v_sub_srt; auto.
  - destruct (run p1) as [a|]; [|discriminate]. destruct (run p2) as [b|]; [|discriminate].
    intros [= <-]. apply v_mul_srt; auto.
  - destruct (run p) as [a|]; [|discriminate]. intros [= <-]. apply v_neg_srt; auto.
  - destruct (run p) as [a|]; [|discriminate]. intros [= <-]. apply v_pow_srt; auto.
  - destruct (run p) as [[q|e]|]; try discriminate.
    destruct (e_div e z) as [f|] eqn:E; [|discriminate]. intros [= <-].
    eapply e_div_srt; [exact E|]. apply (IHp _ eq_refl).
  - destruct (run p1) as [a|]; [|discriminate]. destruct (run p2) as [b|]; [|discriminate].
    intros E. eapply v_subst_srt; [|apply (IHp1 _ eq_refl)|exact E].
    constructor; [apply (IHp2 _ eq_refl)|constructor].
Qed.

(** degree of a monomial in the variable [k] *)
Definition degree (k : nat) (t : term) : nat :=
  fold_right (fun vp acc => if Nat.eqb (fst vp) k then (snd vp + acc)%nat else acc) 0%nat (t_vars t).

(** Sum of the values of the program [p] for [k = 0, ..., n-1]. *)
Definition sum_den (p : prog) (k : nat) (rho : nat -> Q) (n : nat) : Q :=
  fold_right (fun i acc => den p (fun x => if Nat.eqb x k then inject_Z (Z.of_nat i) else rho x) + acc) 0 (seq 0 n).

Lemma qsum_seq n f : qsum n f == fold_right (fun i acc => f i + acc) 0 (seq 0 n).
Proof.
  induction n as [|n IH]; [reflexivity|]. rewrite seq_S, fold_right_app. cbn [fold_right qsum Nat.add].
  rewrite IH. generalize (seq 0 n). clear IH. induction l as [|i l IHl]; cbn [fold_right]; [ring|].
  rewrite <- IHl. ring.
Qed.

Lemma factor_degree t k : (fst (factor_var t k) <= degree k t)%nat.
Proof.
  unfold factor_var, degree. cbn [fst].
  assert (G : forall (vs : list var_power) p, (fold_left (fun p vp => if Nat.eqb (fst vp) k then snd vp else p) vs p
     <= p + fold_right (fun vp acc => if Nat.eqb (fst vp) k then (snd vp + acc)%nat else acc) 0 vs)%nat).
  { induction vs as [|[x q] vs IH]; intros p; cbn [fold_left fold_right fst snd]; [lia|].
    destruct (Nat.eqb x k); [specialize (IH q)|specialize (IH p)]; lia. }
  specialize (G (t_vars t) 0%nat). lia.
Qed.
Lemma factor_degree_eq t k : vsrt (t_vars t) -> fst (factor_var t k) = degree k t.
Proof.
  unfold factor_var, degree. cbn [fst].
  assert (G : forall (vs : list var_power) p, Forall (fun vp => fst vp <> k) vs ->
     fold_left (fun p vp => if Nat.eqb (fst vp) k then snd vp else p) vs p = p /\
     fold_right (fun vp acc => if Nat.eqb (fst vp) k then (snd vp + acc)%nat else acc) 0%nat vs = 0%nat).
  { induction vs as [|[x q] vs IH]; intros p F; cbn [fold_left fold_right fst snd]; [auto|].
    inversion F as [|? ? F1 F2]; subst. cbn in F1. apply Nat.eqb_neq in F1. rewrite F1. apply IH, F2. }
  induction (t_vars t) as [|[x q] vs IH]; intros H; [reflexivity|]. destruct H as [F H].
  cbn [fold_left fold_right fst snd]. destruct (Nat.eqb_spec x k) as [->|N].
  - destruct (G vs q) as [A B]; [eapply Forall_impl; [|exact F]; simpl; intros; lia|].
    rewrite A, B. lia.
  - apply IH, H.
Qed.

(** For an expression whose terms are of degree at most two in [k] (or are exactly [k^3]),
    with integer coefficients (or with a symbolic count), the closed form is the sum.  Missing
    for the full claim: other cubic terms, fractional coefficients (both wrong in the
    code, see below) and higher degrees (refused). *)
Theorem C19_series_sum_partial :
  forall (p : prog) (e : expr) (k : nat) (N : val) (rho : nat -> Q) (n : nat),
    run p = Some (VE e) ->
    evv rho N == inject_Z (Z.of_nat n) ->
    (forall t, In t (e_terms e) ->
       ((degree k t <= 2)%nat \/ (t_vars t = [(k, 3%nat)] /\ t_coef t == 1)) /\
       ((exists z, t_coef t == inject_Z z) \/ exists e', N = VE e')) ->
    exists w, series_sum (VE e) k N = Some w /\ evv rho w == sum_den p k rho n.
Proof.
  intros p e k N rho n R HN HT.
  destruct (series_sum_ev rho k N n e HN) as (w & A & B).
  { pose proof (run_srt p _ R) as S. cbn [val_srt] in S. unfold expr_srt in S.
    rewrite Forall_forall in *. intros t I. destruct (HT t I) as [T1 T2].
    unfold sum_term_ok. split; [apply S, I|]. split.
    - destruct T1 as [T1|T1]; [left|right; exact T1].
      eapply Nat.le_trans; [apply factor_degree|exact T1].
    - destruct T2 as [T2|[e' ->]]; [left; exact T2|right; exact Logic.I]. }
  exists w. split; [exact A|]. rewrite B, qsum_seq. unfold sum_den.
  generalize (seq 0 n). induction l as [|i l IH]; cbn [fold_right]; [reflexivity|].
  rewrite IH. rewrite <- (C14_expression_arithmetic p (VE e) _ R). reflexivity.
Qed.

(** a constant step count *)
Theorem C19_constant :
  forall (z : Z) (k : nat) (N : val) (rho : nat -> Q) (n : nat),
    evv rho N == inject_Z (Z.of_nat n) ->
    exists w, series_sum (VS (inject_Z z)) k N = Some w /\
              evv rho w == sum_den (PConst (inject_Z z)) k rho n.
Proof.
  intros z k N rho n HN. cbn [series_sum]. rewrite q_int_inj.
  eexists. split; [reflexivity|]. rewrite v_mul_ev, HN. cbn [evv].
  unfold sum_den. cbn [den]. clear HN. rewrite <- (qsum_seq n (fun _ => inject_Z z)), qsum_const. reflexivity.
Qed.

(** k^3 + 3 k^2 y + 2 k + 5 summed for k < 4 with y = 7: 36 + 14*21 + 12 + 20 *)
Definition C19_prog : prog :=
  PAdd (PAdd (PAdd (PPow (PVar 0) 3) (PMul (PMul (PConst 3) (PPow (PVar 0) 2)) (PVar 1)))
             (PMul (PConst 2) (PVar 0))) (PConst 5).
Example C19_case :
  exists e w, run C19_prog = Some (VE e) /\
    (forall t, In t (e_terms e) ->
       ((degree 0 t <= 2)%nat \/ (t_vars t = [(0, 3)]%nat /\ t_coef t == 1)) /\
       ((exists z, t_coef t == inject_Z z) \/ exists e', VS 4 = VE e')) /\
    series_sum (VE e) 0 (VS 4) = Some w /\ evv (fun _ => 7) w == 362.
Proof.
  eexists. eexists. split; [vm_compute; reflexivity|]. split; [|split; [vm_compute; reflexivity|vm_compute; reflexivity]].
  intros t H. cbn [e_terms In] in H.
  repeat (destruct H as [<-|H]; [cbn; split; [first [left; lia | right; split; reflexivity]
                                             | left; first [exists 1%Z; reflexivity | exists 2%Z; reflexivity | exists 3%Z; reflexivity]]|]);
  contradiction.
Qed.

(** A cubic coefficient is squared: the sum of 2 k^3 for k < 3 is given as 36, not 18. *)
Theorem C19_cubic_refuted :
  exists e, run (PMul (PConst 2) (PPow (PVar 0) 3)) = Some (VE e) /\
    exists w, series_sum (VE e) 0 (VS 3) = Some w /\ evv (fun _ => 0) w == 36 /\
              sum_den (PMul (PConst 2) (PPow (PVar 0) 3)) 0 (fun _ => 0) 3 == 18.
Proof. eexists. split; [vm_compute; reflexivity|]. eexists. repeat split; vm_compute; reflexivity. Qed.

(** Fractional coefficients are rounded: the sum of (k^2 + k)/2 for k < 2 is given as 0, not 1. *)
Definition triangular : prog := PDiv (PAdd (PPow (PVar 0) 2) (PVar 0)) 2.
Theorem C19_fractions_refuted :
  exists e, run triangular = Some (VE e) /\
    exists w, series_sum (VE e) 0 (VS 2) = Some w /\ evv (fun _ => 0) w == 0 /\
              sum_den triangular 0 (fun _ => 0) 2 == 1.
Proof. eexists. split; [vm_compute; reflexivity|]. eexists. repeat split; vm_compute; reflexivity. Qed.

(** A term of degree four or more is refused (NotImplementedError). *)
Theorem C19_quartic_refused :
  forall (e : expr) (k : nat) (N : val) (t : term),
    expr_srt e -> In t (e_terms e) -> (4 <= degree k t)%nat -> series_sum (VE e) k N = None.
Proof.
  intros e k N t S I D. cbn [series_sum]. generalize (v_mul (VS (e_const e)) N). unfold expr_srt in S.
  induction (e_terms e) as [|t' ts IH]; intros acc; [contradiction|]. inversion S as [|? ? S1 S2]; subst.
  cbn [series_terms]. destruct I as [->|I].
  - assert (F : (4 <= fst (factor_var t k))%nat) by (rewrite (factor_degree_eq t k S1); exact D).
    unfold series_term. destruct (factor_var t k) as [p rest]. cbn [fst] in F.
    destruct p as [|[|[|[|p]]]]; try lia. reflexivity.
  - destruct (series_term t' k N); [|reflexivity]. apply IH; assumption.
Qed.

(** ** C20 *)
Open Scope Z_scope.

(** [n]-fold application *)
Fixpoint iter (f : Z -> Z) (n : nat) (x : Z) : Z :=
  match n with O => x | S n => f (iter f n x) end.

(** The repetition count is the number of times [x - c] can be applied starting from values of
    at least [min]: each application starts at [min] or more, and afterwards the value is below. *)
Theorem C20_subtract_max_reps :
  forall (min c start reps final : Z),
    0 < c -> min - c <= start ->
    subtract_max_reps min c start = (reps, final) ->
    0 <= reps /\
    (forall i : nat, Z.of_nat i < reps -> min <= iter (fun x => x - c) i start) /\
    iter (fun x => x - c) (Z.to_nat reps) start < min /\
    final = iter (fun x => x - c) (Z.to_nat reps) start.
Proof.
  intros min c start reps final C S E. unfold subtract_max_reps in E.
  assert (R : (start - (min - c)) / c = reps) by congruence.
  assert (F : (start - (min - c)) mod c + (min - c) = final) by congruence. clear E.
  assert (IT : forall n, iter (fun x => x - c) n start = start - Z.of_nat n * c).
  { induction n as [|n IH]; cbn [iter]; [lia|]. rewrite IH. lia. }
  pose proof (Z.div_mod (start - (min - c)) c ltac:(lia)) as D.
  pose proof (Z.mod_pos_bound (start - (min - c)) c C) as B. rewrite R in D.
  assert (0 <= reps) by (rewrite <- R; apply Z.div_pos; lia).
  split; [assumption|]. split; [|split].
  - intros i I. rewrite IT. nia.
  - rewrite IT, Z2Nat.id by assumption. lia.
  - rewrite IT, Z2Nat.id by assumption. lia.
Qed.

Theorem C20_subtract_apply_rep :
  forall (c start : Z) (n : nat),
    subtract_apply_rep c start (Z.of_nat n) = iter (fun x => x - c) n start.
Proof. intros c start n. unfold subtract_apply_rep. induction n as [|n IH]; cbn [iter]; lia. Qed.

Theorem C20_add_apply_rep :
  forall (c start : Z) (n : nat),
    add_apply_rep c start (Z.of_nat n) = iter (fun x => x + c) n start.
Proof. intros c start n. unfold add_apply_rep. induction n as [|n IH]; cbn [iter]; lia. Qed.

Example C20_subtract_case :
  subtract_max_reps 4 3 20 = (6, 2) /\ iter (fun x => x - 3) 6 20 = 2 /\
  subtract_apply_rep 3 20 6 = 2 /\ add_apply_rep 3 20 6 = 38.
Proof. vm_compute. auto. Qed.

Lemma mult_iter coef const start n :
  (coef - 1) * iter (fun x => coef * x + const) n start
  = (start * (coef - 1) + const) * coef ^ Z.of_nat n - const.
Proof.
  induction n as [|n IH]; [cbn; lia|]. cbn [iter].
  rewrite Nat2Z.inj_succ, Z.pow_succ_r by lia.
  transitivity (coef * ((coef - 1) * iter (fun x => coef * x + const) n start) + (coef - 1) * const); [ring|].
  rewrite IH. ring.
Qed.

(** The closed form for [x -> coef x + const] is the iterated value; it raises exactly for no
    repetition and at a fixed point. *)
Theorem C20_mult_apply_rep :
  forall (coef const start : Z) (n : nat),
    2 <= coef ->
    match mult_apply_rep coef const start (Z.of_nat n) with
    | Some q => (q == inject_Z (iter (fun x => coef * x + const)%Z n start))%Q
    | None => n = 0%nat \/ coef * start + const = start
    end.
Proof.
  intros coef const start n C. unfold mult_apply_rep.
  destruct (Z.eqb_spec (Z.of_nat n) 0) as [E|E]; cbn [orb]; [left; lia|].
  destruct (Z.eqb_spec (start * (coef - 1) + const) 0) as [F|F]; [right; lia|].
  rewrite <- mult_iter, inject_Z_mult.
  assert (~ inject_Z (coef - 1) == 0)%Q by (intros H; apply (inject_Z_injective (coef - 1) 0) in H; lia).
  rewrite Qmult_comm. apply Qdiv_mult_l. assumption.
Qed.

(** At a fixed point the function raises instead of returning the start value. *)
Theorem C20_fixed_point_refuted :
  mult_apply_rep 2 (-3) 3 5 = None /\ iter (fun x => 2 * x + -3) 5 3 = 3.
Proof. vm_compute. auto. Qed.

Example C20_mult_case :
  exists q, mult_apply_rep 3 (-2) 5 4 = Some q /\ (q == inject_Z 325)%Q /\ iter (fun x => 3 * x + -2) 4 5 = 325.
Proof. eexists. split; [vm_compute; reflexivity|]. split; vm_compute; reflexivity. Qed.

Lemma ceil_div_int a b : 0 < b -> ceil_div (inject_Z a) (inject_Z b) = - ((- a) / b).
Proof.
  intros B. unfold ceil_div.
  assert (E : ((inject_Z a - 1) / inject_Z b == (a - 1) # (Z.to_pos b))%Q).
  { change 1%Q with (inject_Z 1). unfold Qminus. rewrite <- inject_Z_opp, <- inject_Z_plus.
    replace (inject_Z b) with (inject_Z (Zpos (Z.to_pos b))) by (rewrite Z2Pos.id; lia || reflexivity).
    rewrite Qmake_Qdiv. reflexivity. }
  rewrite (Qfloor_comp _ _ E). unfold Qfloor. rewrite Z2Pos.id by exact B.
  pose proof (Z.div_mod (a - 1) b ltac:(lia)). pose proof (Z.mod_pos_bound (a - 1) b B).
  pose proof (Z.div_mod (- a) b ltac:(lia)). pose proof (Z.mod_pos_bound (- a) b B).
  set (x := (a - 1) / b) in *. set (y := (- a) / b) in *. nia.
Qed.

(** The minimum is the least value of at least [min] from which [coef x + const] is never
    below [x]. *)
Theorem C20_mult_compute_min :
  forall (coef const min : Z),
    2 <= coef -> 0 <= min ->
    exists m, mult_compute_min (inject_Z coef) (inject_Z const) min = Some m /\
      min <= m /\
      (forall x, m <= x -> x <= coef * x + const) /\
      (forall m', min <= m' -> (forall x, m' <= x -> x <= coef * x + const) -> m <= m').
Proof.
  intros coef const min C M. unfold mult_compute_min.
  destruct (Qle_bool 0 (inject_Z const)) eqn:Q.
  - apply Qle_bool_iff in Q. change 0%Q with (inject_Z 0) in Q. rewrite <- Zle_Qle in Q.
    exists min. split; [reflexivity|]. split; [lia|]. split; [|intros; assumption]. intros x X. nia.
  - assert (CN : const < 0).
    { destruct (Z_lt_le_dec const 0) as [L|L]; [exact L|].
      rewrite Zle_Qle in L. change (inject_Z 0) with 0%Q in L. apply Qle_bool_iff in L. congruence. }
    assert (E1 : (inject_Z coef - 1 == inject_Z (coef - 1))%Q).
    { change 1%Q with (inject_Z 1). unfold Qminus. rewrite <- inject_Z_opp, <- inject_Z_plus. reflexivity. }
    destruct (Qeq_bool (inject_Z coef - 1) 0) eqn:Z0.
    { apply Qeq_bool_iff in Z0. rewrite E1 in Z0. apply (inject_Z_injective (coef - 1) 0) in Z0. lia. }
    assert (E2 : ceil_div (- inject_Z const) (inject_Z coef - 1) = - (const / (coef - 1))).
    { transitivity (ceil_div (inject_Z (- const)) (inject_Z (coef - 1))).
      - unfold ceil_div. f_equal. apply Qfloor_comp. rewrite E1, inject_Z_opp. reflexivity.
      - rewrite ceil_div_int by lia. rewrite Z.opp_involutive. reflexivity. }
    rewrite E2. eexists. split; [reflexivity|].
    pose proof (Z.div_mod const (coef - 1) ltac:(lia)) as D. pose proof (Z.mod_pos_bound const (coef - 1) ltac:(lia)) as B.
    set (y := const / (coef - 1)) in *. split; [lia|]. split.
    + intros x X. nia.
    + intros m' M' H. specialize (H m' ltac:(lia)). nia.
Qed.

Example C20_min_case :
  mult_compute_min (inject_Z 3) (inject_Z (-7)) 2 = Some 4 /\ 4 <= 3 * 4 + -7 /\ 3 * 3 + -7 < 3.
Proof. vm_compute. split; [reflexivity|]. split; [discriminate|reflexivity]. Qed.

(** For fractional coefficients the minimum is not safe: 3/2 x - 1 is below x at the
    computed minimum 1; 1/2 x + 1 is below x at 3 although 1 is said to suffice.  A
    coefficient of 1 with a negative constant divides by zero. *)
Theorem C20_fractional_coef_refuted :
  mult_compute_min (3 # 2) (-1) 1 = Some 1 /\ ((3 # 2) * 1 + -1 < 1)%Q /\
  mult_compute_min (1 # 2) 1 1 = Some 1 /\ ((1 # 2) * 3 + 1 < 3)%Q /\
  mult_compute_min 1 (-1) 1 = None.
Proof. vm_compute. auto. Qed.

(** ** C21 *)
Theorem C21_gcd :
  forall a b : Z, exists g, gcd a b = Some g /\ 0 <= g /\ (g | a) /\ (g | b) /\
    forall d, (d | a) -> (d | b) -> (d | g).
Proof.
  intros a b. exists (Z.gcd a b). split; [apply gcd_eq|]. split; [apply Z.gcd_nonneg|].
  split; [apply Z.gcd_divide_l|]. split; [apply Z.gcd_divide_r|]. intros d. apply Z.gcd_greatest.
Qed.

(** The least common multiple, with the sign of the product. *)
Theorem C21_lcm :
  forall a b : Z, a <> 0 \/ b <> 0 ->
    exists l, lcm a b = Some l /\ (a | l) /\ (b | l) /\
      (forall m, (a | m) -> (b | m) -> (l | m)) /\ 0 <= l * (a * b).
Proof.
  intros a b H. destruct (lcm_div a b H) as (l & E & A & B & C). exists l.
  split; [exact E|]. split; [exact A|]. split; [exact B|]. split; [exact C|].
  destruct (lcm_eq a b H) as [E1 _].
  assert (l = a * b / Z.gcd a b) as -> by congruence.
  assert (G : Z.gcd a b <> 0) by (intros G; apply Z.gcd_eq_0 in G; lia).
  pose proof (Z.gcd_nonneg a b). destruct (Z.gcd_divide_l a b) as [q Q].
  assert (X : a * b = q * b * Z.gcd a b) by (rewrite Q at 1; ring).
  rewrite X at 1. rewrite Z.div_mul by exact G. rewrite X.
  replace (q * b * (q * b * Z.gcd a b)) with (Z.gcd a b * ((q * b) * (q * b))) by ring.
  apply Z.mul_nonneg_nonneg; [assumption|]. apply Z.square_nonneg.
Qed.

Theorem C21_lcm_of_zeros_refuted : lcm 0 0 = None.
Proof. reflexivity. Qed.

(** The decomposition is a decomposition, whatever the floating point functions return. *)
Theorem C21_int_pow :
  forall (fsqrt : Z -> option Z) (flog : Z -> Z -> option Z) (n m k : Z),
    int_pow fsqrt flog n = Some (m, k) -> 0 <= k /\ m ^ k = n.
Proof.
  intros fs fl n m k. unfold int_pow. destruct (fs n) as [s|]; [|discriminate].
  intros E. apply int_pow_loop_sound in E; [tauto|lia].
Qed.

(** If they are accurate, the base is the smallest. *)
Theorem C21_int_pow_smallest :
  forall (fsqrt : Z -> option Z) (flog : Z -> Z -> option Z) (n m k : Z),
    2 <= n ->
    (forall s, fsqrt n = Some s -> 0 <= s /\ n < (s + 1) * (s + 1)) ->
    (forall m k, 1 < m -> 0 <= k -> m ^ k = n -> flog n m = Some k) ->
    int_pow fsqrt flog n = Some (m, k) ->
    forall m' k', 2 <= m' -> 0 <= k' -> m' ^ k' = n -> m <= m'.
Proof.
  intros fs fl n m k N HS HL. unfold int_pow. destruct (fs n) as [s|] eqn:S; [|discriminate].
  specialize (HS s eq_refl). intros E m' k' M' K' P.
  apply (int_pow_loop_least fl n _ 2 m k HL ltac:(lia)) in E.
  destruct E as [(-> & -> & E)|(R & E)].
  - destruct (Z_lt_le_dec m' n) as [L|L]; [|exact L]. exfalso.
    assert (2 <= k').
    { destruct (Z.eq_dec k' 0) as [->|]; [rewrite Z.pow_0_r in P; lia|].
      destruct (Z.eq_dec k' 1) as [->|]; [rewrite Z.pow_1_r in P; lia|]. lia. }
    assert (SQ : m' * m' <= n).
    { rewrite <- P. replace k' with (2 + (k' - 2)) by lia. rewrite Z.pow_add_r by lia.
      replace (m' ^ 2) with (m' * m') by ring.
      assert (0 < m' ^ (k' - 2)) by (apply Z.pow_pos_nonneg; lia). nia. }
    destruct (Z_lt_le_dec s m') as [X|X]; [nia|].
    apply (E m' k'); [lia|exact K'|exact P].
  - destruct (Z_lt_le_dec m' m) as [L|L]; [|exact L]. exfalso. apply (E m' k'); [lia|exact K'|exact P].
Qed.

(** accurate functions exist *)
Definition exact_log (n m : Z) : option Z :=
  match find (fun k => m ^ Z.of_nat k =? n) (seq 0 (S (Z.to_nat (Z.log2 n)))) with
  | Some k => Some (Z.of_nat k)
  | None => Some 0
  end.
Example C21_int_pow_case :
  (forall s, Some (Z.sqrt 3125) = Some s -> 0 <= s /\ 3125 < (s + 1) * (s + 1)) /\
  (forall m k, 1 < m -> 0 <= k -> m ^ k = 3125 -> exact_log 3125 m = Some k) /\
  int_pow (fun n => Some (Z.sqrt n)) exact_log 3125 = Some (5, 5).
Proof.
  split; [|split; [|vm_compute; reflexivity]].
  - intros s [= <-]. change (0 <= 55 /\ 3125 < (55 + 1) * (55 + 1)). lia.
  - intros m k M K E. unfold exact_log.
    assert (KL : k <= Z.log2 3125).
    { destruct (Z_le_gt_dec k (Z.log2 3125)) as [L|L]; [exact L|]. exfalso.
      assert (m ^ 12 <= m ^ k) by (apply Z.pow_le_mono_r; [lia|]; change (Z.log2 3125) with 11 in L; lia).
      assert (2 ^ 12 <= m ^ 12) by (apply Z.pow_le_mono_l; lia). lia. }
    destruct (find _ _) as [j|] eqn:F.
    + apply find_some in F as [_ F]. apply Z.eqb_eq in F. f_equal.
      apply (Z.pow_inj_r m); [lia|lia|exact K|lia].
    + exfalso. eapply find_none in F; [apply Z.eqb_neq in F; apply F|].
      * rewrite Z2Nat.id; [exact E|exact K].
      * apply in_seq. lia.
Qed.

(** Prime factorisation: the factorisation into increasing primes if all prime divisors are
    below 100, otherwise the function raises. *)
Theorem C21_prime_factor :
  forall n : Z, 0 < n -> (forall q, prime q -> (q | n) -> q < 100) ->
    exists fs, prime_factor n = Some fs /\
      fold_right (fun pk acc => fst pk ^ Z.of_nat (snd pk) * acc) 1 fs = n /\
      (forall p k, In (p, k) fs -> prime p /\ (1 <= k)%nat) /\
      (forall i j, (i < j < length fs)%nat -> fst (nth i fs (0, 0%nat)) < fst (nth j fs (0, 0%nat))).
Proof.
  intros n N H. pose proof (prime_factor_ok n N) as P. destruct (prime_factor n) as [fs|].
  - destruct P as (A & B & C). exists fs. split; [reflexivity|]. split; [exact A|]. split.
    + intros p k I. rewrite Forall_forall in B. destruct (B _ I) as [X Y]. cbn in X, Y.
      split; [apply primes_prime, X|lia].
    + intros i j R. apply incr_increasing in C. specialize (C i j). rewrite map_length in C.
      specialize (C R). rewrite <- !(map_nth fst). exact C.
  - destruct P as (q & A & B & C). specialize (H q A B).
    (* no prime is 98 or 99 *)
    assert (q = 98 \/ q = 99) as [->| ->] by lia.
    + destruct (prime_divisors 98 A 2) as [X|[X|[X|X]]]; try discriminate. exists 49. reflexivity.
    + destruct (prime_divisors 99 A 3) as [X|[X|[X|X]]]; try discriminate. exists 33. reflexivity.
Qed.

Theorem C21_prime_factor_refuses :
  forall n : Z, n <= 0 \/ (exists q, prime q /\ (q | n) /\ 100 < q) -> prime_factor n = None.
Proof.
  intros n [N|(q & A & B & C)].
  - unfold prime_factor. destruct (Z.gtb_spec n 0); [lia|reflexivity].
  - destruct (Z_lt_le_dec 0 n) as [N|N]; [|unfold prime_factor; destruct (Z.gtb_spec n 0); [lia|reflexivity]].
    pose proof (prime_factor_ok n N) as P. destruct (prime_factor n) as [fs|]; [|reflexivity].
    destruct P as (P & F & _). exfalso. subst n. clear N.
    induction fs as [|[p k] fs IH].
    + cbn in B. apply Z.divide_1_r in B. lia.
    + inversion F as [|? ? [F1 F2] F3]; subst. cbn in F1, F2.
      change (prod ((p, k) :: fs)) with (p ^ Z.of_nat k * prod fs) in B.
      apply prime_mult in B; [|exact A]. destruct B as [B|B]; [|apply IH; assumption].
      apply (prime_power_prime q p (Z.of_nat k)) in B; [|lia|exact A|apply primes_prime, F1].
      subst q. assert (forallb (fun p => p <=? 97) primes = true) as X by reflexivity.
      rewrite forallb_forall in X. specialize (X p F1). apply Z.leb_le in X. lia.
Qed.

Example C21_prime_factor_case : prime_factor 87120 = Some [(2, 4%nat); (3, 2%nat); (5, 1%nat); (11, 2%nat)].
Proof. vm_compute. reflexivity. Qed.

(** ** C22 *)
Theorem C22_exp_mod :
  forall b k m : Z, 0 <= k -> 0 < m ->
    (forall q, prime q -> (q | m) -> q < 100) ->
    exp_mod b k m = Some (b ^ k mod m).
Proof.
  intros b k m K M H.
  destruct (exp_mod b k m) as [r|] eqn:E.
  - f_equal. apply (exp_mod_ok b k m r M K E).
  - apply exp_mod_defined in E; [|assumption..]. apply carmichael_none in E; [|exact M].
    destruct (C21_prime_factor m M H) as (fs & F & _). congruence.
Qed.

(** A number it does not factor raises. *)
Theorem C22_exp_mod_refuses :
  forall b k m : Z, m <= 0 \/ (exists q, prime q /\ (q | m) /\ 100 < q) -> exp_mod b k m = None.
Proof.
  intros b k m H. unfold exp_mod, carmichael. rewrite (C21_prime_factor_refuses m H). reflexivity.
Qed.

(** [carmichael] gives an exponent that turns every unit into 1. *)
Theorem C22_carmichael_exponent :
  forall n kp k0 b, 0 < n -> carmichael n = Some (kp, k0) ->
    Z.gcd b n = 1 -> 0 < kp /\ b ^ kp mod n = 1 mod n.
Proof.
  intros n kp k0 b N C G. split; [apply (carmichael_ok n kp k0 N C)|].
  apply Zgcd_1_rel_prime in G. pose proof (carmichael_unit n kp k0 b N C G) as [q Q].
  replace (b ^ kp) with (1 + q * n) by lia. rewrite Z.mod_add by lia. reflexivity.
Qed.

Example C22_case :
  carmichael 720 = Some (12, 4%nat) /\
  exp_mod 6 1000003 720 = Some 576 /\ exp_mod 7 (10 ^ 30 + 1) 720 = Some 247 /\
  exp_mod 2 3 720 = Some 8.
Proof. vm_compute. auto. Qed.

Print Assumptions C19_series_sum_partial.
Print Assumptions C19_constant.
Print Assumptions C19_cubic_refuted.
Print Assumptions C19_fractions_refuted.
Print Assumptions C19_quartic_refused.
Print Assumptions C20_subtract_max_reps.
Print Assumptions C20_subtract_apply_rep.
Print Assumptions C20_add_apply_rep.
Print Assumptions C20_mult_apply_rep.
Print Assumptions C20_mult_compute_min.
Print Assumptions C21_gcd.
Print Assumptions C21_lcm.
Print Assumptions C21_int_pow.
Print Assumptions C21_int_pow_smallest.
Print Assumptions C21_prime_factor.
Print Assumptions C21_prime_factor_refuses.
Print Assumptions C22_exp_mod.
Print Assumptions C22_exp_mod_refuses.
Print Assumptions C22_carmichael_exponent.
