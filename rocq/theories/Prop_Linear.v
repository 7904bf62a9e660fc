(** * C57: rules applied in closed form (--exp-linear-rules) *)
Require Import ZArith List Lia Bool Arith QArith Qpower Lqa.
From Verif Require Import M_Expr P_Expr M_Tape M_Simulator M_Prover M_Math Prop_Math P_Nums Spec_Linear M_Linear P_Linear.
Import ListNotations.
Open Scope Z_scope.

(** A rule made by [Linear_Rule.try_gen] and counts it is tried on: one variable per block,
    minima that are not negative; a block without variable has the same count before and
    after, a block with a variable a finite count. *)
Record linear_case (vars : list (option nat)) (mins : list (option Q)) (result : list (option val))
       (l : linear_rule) (cur : list (option Z)) : Prop := {
  lc_gen : linear_try_gen vars mins result = Some (Some l);
  lc_mins : length mins = length vars;
  lc_result : length result = length vars;
  lc_nodup : NoDup (vlist vars);
  lc_pos : Forall min_ok mins;
  lc_cur : Forall2 blk_ok (combine (combine vars mins) result) cur }.

(** The new counts are those after firing the rule some number of times, one after the
    other, each time with all counts at least the proven minima; then it cannot fire again. *)
Theorem C57_applied :
  forall vars mins result l cur new,
    linear_case vars mins result l cur ->
    apply_linear_counts l cur = Some (LApply new) ->
    exists (k : nat) (run : nat -> list (option Z)),
      (1 <= k)%nat /\ run 0%nat = cur /\ run k = new /\
      (forall j, (j < k)%nat -> fires vars mins result (run j) (run (S j))) /\
      forall c', ~ fires vars mins result new c'.
Proof.
  intros vars mins result l cur new [G L1 L2 ND HM HC] E.
  destruct (apply_linear_cases vars mins result l G L1 L2 HM cur HC) as (fs & L & El & H).
  rewrite E in H. destruct H as (k & K & -> & HB & i & m & c & z & Hn & Hz).
  exists k, (fun j => its j fs cur). split; [exact K|]. split; [now apply (its_0 _ _ _ L)|]. split; [reflexivity|].
  split.
  - intros j J. apply (fires_iter _ fs cur j L HC); [now apply bs_nodup|now apply HB].
  - intros c' (sg & F). exact (no_fires _ fs _ i m c z L Hn Hz sg c' F).
Qed.

(** "Applies infinitely": the rule can be fired for ever. *)
Theorem C57_infinite :
  forall vars mins result l cur,
    linear_case vars mins result l cur ->
    apply_linear_counts l cur = Some LInf ->
    exists run : nat -> list (option Z),
      run 0%nat = cur /\ forall j, fires vars mins result (run j) (run (S j)).
Proof.
  intros vars mins result l cur [G L1 L2 ND HM HC] E.
  destruct (apply_linear_cases vars mins result l G L1 L2 HM cur HC) as (fs & L & El & H).
  rewrite E in H. destruct H as [_ H].
  exists (fun j => its j fs cur). split; [now apply (its_0 _ _ _ L)|].
  intros j. apply (fires_iter _ fs cur j L HC); [now apply bs_nodup|apply H].
Qed.

(** The rule is turned down only if a count is below its minimum in the rule. *)
Theorem C57_below :
  forall vars mins result l cur,
    linear_case vars mins result l cur ->
    apply_linear_counts l cur = Some LBelow ->
    forall c', ~ fires (l_vars l) (l_mins l) result cur c'.
Proof.
  intros vars mins result l cur [G L1 L2 ND HM HC] E c' (sg & F).
  destruct (apply_linear_cases vars mins result l G L1 L2 HM cur HC) as (fs & L & El & H).
  rewrite E in H. apply H. clear H E. rewrite El in F. cbn [l_vars l_mins] in F.
  clear El G HM ND HC l. revert mins result fs cur c' L1 L2 L F.
  induction vars as [|v vars IH]; intros [|m mins] [|r result] fs cur c' L1 L2 L F; try discriminate;
    cbn [combine] in L; inversion L as [|? f ? fs' Hb L']; subst; cbn [combine map new_min] in F;
    inversion F as [|? ? n ns n' ns' F1 F2]; subst; [constructor|]. cbn [combine].
  constructor; [|injection L1 as L1; injection L2 as L2; now apply (IH mins result fs' ns ns')].
  destruct v as [x|].
  - destruct Hb as (q & mz & coef & const & K & -> & _ & -> & -> & _). cbn [new_min] in F1.
    inversion F1; subst. cbn [above].
    match goal with H : (inject_Z _ <= _)%Q |- _ => now rewrite <- Zle_Qle in H end.
  - simpl in Hb. subst f. destruct n; exact I.
Qed.

(** An exception is raised only if a count is the fixed point of its function. *)
Theorem C57_exception :
  forall vars mins result l cur,
    linear_case vars mins result l cur ->
    apply_linear_counts l cur = None ->
    exists i m a b z, nth_error (l_funcs l) i = Some (Some (FMul m a b)) /\
      nth_error cur i = Some (Some z) /\ a * z + b = z.
Proof.
  intros vars mins result l cur [G L1 L2 ND HM HC] E.
  destruct (apply_linear_cases vars mins result l G L1 L2 HM cur HC) as (fs & L & El & H).
  rewrite E in H. rewrite El. cbn [l_funcs]. apply Exists_exists in H as ([f n] & Hin & H).
  apply In_nth_error in Hin as [i Hin].
  assert (K : nth_error fs i = Some f /\ nth_error cur i = Some n).
  { clear -Hin. revert cur i Hin. induction fs as [|g fs IH]; intros [|c cs] [|i] Hin; try discriminate; cbn in *.
    - injection Hin as -> ->. auto.
    - now apply IH. }
  destruct f as [[| |m a b]|]; try contradiction. destruct n as [z|]; [|contradiction].
  exists i, m, a, b, z. cbn in H. tauto.
Qed.

(** ... and then it is, although the rule can be applied: x -> x - 1, y -> 2 y - 3 from
    x = 5, y = 3.  The other code path, without --exp-linear-rules, answers. *)
Definition fix_vars := [None; Some 1%nat; Some 2%nat; None].
Definition fix_mins : list (option Q) := [None; Some 2%Q; Some 1%Q; None].
Definition fix_result : list (option val) :=
  [None; Some (VE (Expr [Term [(1%nat, 1%nat)] 1] (-1))); Some (VE (Expr [Term [(2%nat, 1%nat)] 2] (-3))); None].
Definition fix_rule := LinearRule fix_vars [None; Some 2%Q; Some 3%Q; None] [None; Some (FSub 2 1); Some (FMul 3 2 (-3)); None] fix_result.

Lemma fix_case y : linear_case fix_vars fix_mins fix_result fix_rule [None; Some 5; Some y; None].
Proof.
  constructor; try reflexivity.
  - repeat constructor; simpl; lia.
  - repeat constructor; simpl; discriminate.
  - repeat constructor; simpl; discriminate.
Qed.

Theorem C57_fixed_point_refuted :
  linear_case fix_vars fix_mins fix_result fix_rule [None; Some 5; Some 3; None] /\
  apply_linear_counts fix_rule [None; Some 5; Some 3; None] = None /\
  (exists asg, gen_reps 10 (l_vars fix_rule) (l_mins fix_rule) fix_result (VS 0%Q) [None; Some 5; Some 3; None] 0 None
   = Some (GDone [None; Some 1; Some 3; None] 0 (Some asg))) /\
  fires fix_vars fix_mins fix_result [None; Some 5; Some 3; None] [None; Some 4; Some 3; None].
Proof.
  split; [apply fix_case|]. split; [vm_compute; reflexivity|]. split; [eexists; vm_compute; reflexivity|].
  exists (fun x => match x with 1%nat => 5 | _ => 3 end).
  repeat constructor; vm_compute; try discriminate; reflexivity.
Qed.

Example C57_case :
  linear_case fix_vars fix_mins fix_result fix_rule [None; Some 5; Some 4; None] /\
  apply_linear_counts fix_rule [None; Some 5; Some 4; None] = Some (LApply [None; Some 1; Some 19; None]) /\
  apply_linear_counts fix_rule [None; Some 1; Some 4; None] = Some LBelow /\
  apply_linear_counts fix_rule [None; Some 100; Some 4; None] = Some (LApply [None; Some 1; Some (2 ^ 99 + 3); None]).
Proof. split; [apply fix_case|]. vm_compute. auto. Qed.

Example C57_infinite_case :
  let vars := [None; Some 7%nat] in
  let result := [None; Some (VE (Expr [Term [(7%nat, 1%nat)] 3] (-5)))] in
  exists l, linear_case vars [None; Some 1%Q] result l [None; Some 3] /\
    apply_linear_counts l [None; Some 3] = Some LInf /\ apply_linear_counts l [None; Some 2] = Some LBelow /\
    gen_infinite (Some 7%nat, Some (VE (Expr [Term [(7%nat, 1%nat)] 3] (-5)))) = false.
Proof.
  exists (LinearRule [None; Some 7%nat] [None; Some 3%Q] [None; Some (FMul 3 3 (-5))]
            [None; Some (VE (Expr [Term [(7%nat, 1%nat)] 3] (-5)))]).
  split; [|vm_compute; auto].
  constructor; try reflexivity.
  - repeat constructor; simpl; lia.
  - repeat constructor; simpl; discriminate.
  - repeat constructor; simpl; discriminate.
Qed.

(** ** The tape is the one found by applying the rule once at a time *)

Lemma drop_zeros_id {Sym} (t : ctape Z Sym) : ~ In (Some 0) (nums t) -> drop_zeros t = t.
Proof.
  intros H. unfold drop_zeros. unfold nums in H. rewrite in_app_iff, <- !in_rev in H.
  assert (F : forall h : list (blk Z Sym), ~ In (Some 0) (map k_num h) ->
    filter (fun b => match k_num b with Some z => negb (z =? 0) | None => true end) h = h).
  { induction h as [|b h IH]; intros N; [reflexivity|]. cbn [filter]. simpl in N.
    rewrite IH by tauto. destruct (k_num b) as [z|] eqn:E; [|reflexivity].
    destruct (Z.eqb_spec z 0) as [->|]; [tauto|reflexivity]. }
  rewrite !F by tauto. destruct t; reflexivity.
Qed.

Theorem C57_same_tape :
  forall Sym vars mins result l (t t' : ctape Z Sym),
    linear_case vars mins result l (nums t) ->
    apply_linear_rule l t = Some (LApply t') ->
    ~ In (Some 0) (nums t') ->
    exists k : nat, forall max_num_reps : nat, (k <= max_num_reps)%nat ->
      match l_gen l with
      | RGen vars mins result infinite steps seen =>
        apply_general_rule max_num_reps vars mins result infinite steps seen t = Some (Some (PApply t' 0 None))
      | RDiff _ _ _ _ => False
      end.
Proof.
  intros Sym vars mins result l t t' [G L1 L2 ND HM HC] E Hz.
  destruct (apply_linear_cases vars mins result l G L1 L2 HM (nums t) HC) as (fs & L & El & H).
  unfold apply_linear_rule in E. destruct (apply_linear_counts l (nums t)) as [[| |new]|]; try discriminate.
  injection E as <-. destruct H as (k & K & -> & HB & i & m & c & z & Hn & Hlt).
  assert (Hd : exists m c, In (Some (FSub m c)) fs /\ 0 < c).
  { exists m, c. assert (I1 : In (Some (FSub m c)) fs).
    { apply nth_error_In in Hn. now apply in_combine_l in Hn. }
    split; [exact I1|]. pose proof (lblock_wf _ _ (its k fs (nums t)) L) as W. rewrite Forall_forall in W.
    apply nth_error_In in Hn. specialize (W _ Hn). exact W. }
  assert (Na : ~ Forall above (combine fs (its k fs (nums t)))).
  { intros F. rewrite Forall_forall in F. apply nth_error_In in Hn. specialize (F _ Hn). cbn in F. lia. }
  exists k. intros mx Hmx. rewrite El. unfold l_gen. cbn [l_vars l_mins l_result].
  unfold apply_general_rule. destruct mx as [|mx]; [lia|].
  rewrite (fits_lin vars mins result fs (nums t) []) by assumption.
  assert (Inf : forallb gen_infinite (combine vars result) = false).
  { apply not_true_is_false. intros F. rewrite forallb_forall in F.
    assert (B : exists x r, In (Some x, Some r) (combine vars result) /\ gen_infinite (Some x, Some r) = false).
    { destruct Hd as (m' & c' & Hi & Hc). clear -L1 L2 L Hi Hc. revert mins result fs L1 L2 L Hi.
      induction vars as [|v vars IH]; intros [|mm mins] [|r result] fs L1 L2 L Hi; try discriminate;
        cbn [combine] in L; inversion L as [|? f ? fs' Hb L']; subst; [destruct Hi|].
      destruct Hi as [->|Hi].
      - destruct v as [x|]; [|simpl in Hb; discriminate].
        destruct Hb as (q & mz & coef & const & K & -> & _ & -> & EK & _ & _ & _ & Hv). injection EK as <-.
        eexists x, _. split; [left; reflexivity|]. cbn [gen_infinite].
        apply not_true_is_false. intros G. apply (always_ge_sound _ _ (fun _ => 0%Q)) in G; [|intros; apply Qle_refl].
        rewrite ev_lin in G. pose proof (Hv 0) as H0. cbn [fapp] in H0.
        assert (E0 : (evv (fun _ => 0) (VE (var_expr x)) == 0)%Q) by reflexivity. rewrite E0 in G.
        assert (C1 : (inject_Z (0 - c') < 0)%Q).
        { change 0%Q with (inject_Z 0). rewrite <- Zlt_Qlt. lia. }
        change (inject_Z 0) with 0%Q in H0. lra.
      - injection L1 as L1. injection L2 as L2.
        destruct (IH mins result fs' L1 L2 L' Hi) as (x & r' & H1 & H2). exists x, r'. split; [now right|exact H2]. }
    destruct B as (x & r & B1 & B2). specialize (F _ B1). congruence. }
  rewrite Inf. cbn [andb].
  destruct (gen_reps_lin vars mins result L1 L2 ND (nums t) HC fs k L HB Hd 0 (S mx) 0 None) as (asg & Eg);
    try lia; auto.
  rewrite (its_0 _ _ _ L HC) in Eg.
  destruct (forallb aboveb (combine fs (nums t))) eqn:Ea; rewrite Eg;
    unfold apply_linear_rule in Hz; now rewrite drop_zeros_id.
Qed.

(** ** The minimum of an exponential function *)

Record pow_ok (f : pow_func) : Prop := {
  po_base : 2 <= p_base f; po_coef : 1 <= p_coef f; po_denom : 1 <= p_denom f; po_uexp : 1 <= p_uexp f }.

(** [a b^{u x + v}] *)
Definition pow_part (f : pow_func) (x : Z) : Q :=
  (inject_Z (p_coef f) * Qpower (inject_Z (p_base f)) (p_uexp f * x + p_vexp f))%Q.

(** the ceiling of (log_b(d x - c) - log_b a - v) / u, for d x - c > 0 *)
Definition is_ceiling (f : pow_func) (ceil_bound : Z -> Z) : Prop :=
  forall x k, 0 < p_denom f * x - p_const f ->
    (ceil_bound x <= k <-> (inject_Z (p_denom f * x - p_const f) <= pow_part f k)%Q).

Lemma pow_part_pos f x : pow_ok f -> (0 < pow_part f x)%Q.
Proof.
  intros [B C D U]. unfold pow_part. apply Qmult_lt_0_compat.
  - change 0%Q with (inject_Z 0). rewrite <- Zlt_Qlt. lia.
  - apply Qpower_0_lt. change 0%Q with (inject_Z 0). rewrite <- Zlt_Qlt. lia.
Qed.

Lemma pow_part_lt f x y : pow_ok f -> x < y -> (pow_part f x < pow_part f y)%Q.
Proof.
  intros [B C D U] H. unfold pow_part. apply Qmult_lt_l.
  - change 0%Q with (inject_Z 0). rewrite <- Zlt_Qlt. lia.
  - apply Qpower_lt_compat_l; [nia|]. change 1%Q with (inject_Z 1). rewrite <- Zlt_Qlt. lia.
Qed.

Lemma pow_value_gt f x : pow_ok f ->
  (inject_Z x < pow_value f x <-> inject_Z (p_denom f * x - p_const f) < pow_part f x)%Q.
Proof.
  intros [B C D U]. unfold pow_value. fold (pow_part f x).
  assert (Dp : (0 < inject_Z (p_denom f))%Q).
  { change 0%Q with (inject_Z 0). rewrite <- Zlt_Qlt. lia. }
  unfold Z.sub. rewrite inject_Z_plus, inject_Z_opp, inject_Z_mult. split; intros H.
  - apply (Qmult_lt_l _ _ _ Dp) in H. rewrite Qmult_div_r in H by lra. lra.
  - apply (Qmult_lt_l _ _ _ Dp). rewrite Qmult_div_r by lra. lra.
Qed.

Lemma pow_value_lt f x y : pow_ok f -> x < y -> (pow_value f x < pow_value f y)%Q.
Proof.
  intros Hf H. pose proof (pow_part_lt f x y Hf H) as P. destruct Hf as [B C D U].
  unfold pow_value. fold (pow_part f x) (pow_part f y).
  assert (Dp : (0 < / inject_Z (p_denom f))%Q).
  { apply Qinv_lt_0_compat. change 0%Q with (inject_Z 0). rewrite <- Zlt_Qlt. lia. }
  unfold Qdiv. rewrite !(Qmult_comm _ (/ _)). apply Qmult_lt_l; [exact Dp|]. lra.
Qed.

(** If [compute_min] answers then from its answer on the function is above its argument, so
    counts only grow: for functions whose values are integers, and exact logarithms. *)
Theorem C57_pow_min :
  forall (f : pow_func) (ceil_bound : Z -> Z) (fuel : nat) (min m : Z),
    pow_ok f -> is_ceiling f ceil_bound ->
    (forall x, min <= x -> exists z, (pow_value f x == inject_Z z)%Q) ->
    pow_compute_min f ceil_bound fuel min = Some m ->
    min <= m /\ forall x, m <= x -> (inject_Z x < pow_value f x)%Q.
Proof.
  intros f cb fuel min m Hf Hc. revert min. induction fuel as [|fuel IH]; intros min Hi E; [discriminate|].
  cbn [pow_compute_min] in E. fold (pow_part f min) in E.
  assert (Fin : (inject_Z (p_denom f * min - p_const f) < pow_part f min)%Q ->
    min <= min /\ forall x, min <= x -> (inject_Z x < pow_value f x)%Q).
  { intros H. split; [lia|]. apply pow_value_gt in H; [|exact Hf].
    intros x Hx. replace x with (min + Z.of_nat (Z.to_nat (x - min))) by lia.
    generalize (Z.to_nat (x - min)). intros n. induction n as [|n IHn]; [now rewrite Z.add_0_r|].
    destruct (Hi (min + Z.of_nat n)) as (z & Ez); [lia|]. destruct (Hi (min + Z.of_nat (S n))) as (z' & Ez'); [lia|].
    assert (L : (pow_value f (min + Z.of_nat n) < pow_value f (min + Z.of_nat (S n)))%Q) by (apply pow_value_lt; [exact Hf|lia]).
    rewrite Ez, Ez' in *. rewrite <- Zlt_Qlt in *. lia. }
  destruct (Z.leb_spec (p_denom f * min - p_const f) 0) as [Hd|Hd].
  - injection E as <-. apply Fin. apply Qle_lt_trans with 0%Q; [|now apply pow_part_pos].
    change 0%Q with (inject_Z 0). now rewrite <- Zle_Qle.
  - destruct (Qle_bool (pow_part f min) _) eqn:Eq; cbn [negb] in E.
    + assert (G : min <= cb min).
      { destruct (Z_lt_le_dec (cb min) min) as [G|G]; [|exact G]. exfalso.
        assert (K : cb min <= min - 1) by lia. apply (Hc min (min - 1) Hd) in K. apply Qle_bool_iff in Eq.
        pose proof (pow_part_lt f (min - 1) min Hf ltac:(lia)). lra. }
      destruct (IH (cb min)) as [A1 A2]; [intros x Hx; apply Hi; lia|exact E|]. split; [lia|exact A2].
    + injection E as <-. apply Fin. apply Qnot_le_lt. intros H. apply Qle_bool_iff in H. congruence.
Qed.

(** It does not answer, however long it runs, if the minimum is a fixed point of the
    function, as for x -> 2^(x-1) from 1. *)
Theorem C57_pow_loop_refuted :
  forall (f : pow_func) (ceil_bound : Z -> Z) (min : Z),
    pow_ok f -> is_ceiling f ceil_bound -> 0 < p_denom f * min - p_const f ->
    (pow_value f min == inject_Z min)%Q ->
    forall fuel, pow_compute_min f ceil_bound fuel min = None.
Proof.
  intros f cb min Hf Hc Hd Hv.
  assert (E : (pow_part f min == inject_Z (p_denom f * min - p_const f))%Q).
  { unfold pow_value in Hv. fold (pow_part f min) in Hv. destruct Hf as [B C D U].
    assert (Dp : ~ (inject_Z (p_denom f) == 0)%Q).
    { change 0%Q with (inject_Z 0). rewrite inject_Z_injective. lia. }
    assert (H : (inject_Z (p_denom f) * ((pow_part f min + inject_Z (p_const f)) / inject_Z (p_denom f)) == inject_Z (p_denom f) * inject_Z min)%Q)
      by (rewrite Hv; reflexivity).
    rewrite Qmult_div_r in H by exact Dp.
    unfold Z.sub. rewrite inject_Z_plus, inject_Z_opp, inject_Z_mult. lra. }
  assert (C : cb min = min).
  { assert (A : cb min <= min) by (apply (Hc min min Hd); rewrite E; apply Qle_refl).
    destruct (Z_lt_le_dec (cb min) min) as [G|G]; [|lia]. exfalso.
    assert (K : cb min <= min - 1) by lia. apply (Hc min (min - 1) Hd) in K.
    pose proof (pow_part_lt f (min - 1) min Hf ltac:(lia)). lra. }
  induction fuel as [|fuel IH]; [reflexivity|]. cbn [pow_compute_min]. fold (pow_part f min).
  destruct (Z.leb_spec (p_denom f * min - p_const f) 0); [lia|].
  replace (Qle_bool (pow_part f min) (inject_Z (p_denom f * min - p_const f))) with true.
  - cbn [negb]. rewrite C. exact IH.
  - symmetry. apply Qle_bool_iff. rewrite E. apply Qle_refl.
Qed.

(** x -> 2^(x-1); the ceiling of log_2(x) + 1 *)
Definition half_pow := PowFunc 2 1 0 1 1 (-1).
Lemma half_pow_ceiling : is_ceiling half_pow (fun x => Z.log2_up x + 1).
Proof.
  intros x k H. cbn [half_pow p_denom p_const] in *. unfold pow_part, half_pow. cbn [p_coef p_base p_uexp p_vexp].
  replace (1 * x - 0) with x in * by lia. replace (1 * k + -1) with (k - 1) by lia.
  change (inject_Z 1) with 1%Q. rewrite Qmult_1_l.
  destruct (Z_lt_le_dec (k - 1) 0) as [N|N].
  - split; intros K.
    + pose proof (Z.log2_up_nonneg x). lia.
    + exfalso. assert (P : (Qpower (inject_Z 2) (k - 1) < 1)%Q).
      { change 1%Q with (Qpower (inject_Z 2) 0). apply Qpower_lt_compat_l; [lia|reflexivity]. }
      assert (K1 : (1 <= inject_Z x)%Q). { change 1%Q with (inject_Z 1). rewrite <- Zle_Qle. lia. }
      lra.
  - rewrite <- Zpower_Qpower by exact N. rewrite <- Zle_Qle.
    pose proof (Z.log2_up_le_pow2 x (k - 1)) as P. lia.
Qed.

Example C57_pow_case :
  pow_ok half_pow /\ is_ceiling half_pow (fun x => Z.log2_up x + 1) /\
  pow_compute_min half_pow (fun x => Z.log2_up x + 1) 5 3 = Some 3 /\
  pow_compute_min half_pow (fun x => Z.log2_up x + 1) 1000 1 = None /\
  (pow_value half_pow 1 == 1)%Q /\ (pow_value half_pow 3 == 4)%Q /\
  pow_compute_min (PowFunc 3 1 17 2 1 (-10)) (fun _ => 12) 5 10 = Some 12.
Proof.
  split; [constructor; cbn; lia|]. split; [exact half_pow_ceiling|]. vm_compute. auto 10.
Qed.

Print Assumptions C57_applied.
Print Assumptions C57_infinite.
Print Assumptions C57_below.
Print Assumptions C57_exception.
Print Assumptions C57_fixed_point_refuted.
Print Assumptions C57_same_tape.
Print Assumptions C57_pow_min.
Print Assumptions C57_pow_loop_refuted.
