(** * The closed forms of [series_sum] *)
Require Import ZArith List Lia Bool Arith QArith Qround Lqa.
From Verif Require Import M_Expr P_Expr M_Prover P_Lin.
Import ListNotations.
Open Scope Q_scope.

(** ** a variable occurs once in a term *)
Fixpoint vsrt (vs : list var_power) : Prop :=
  match vs with
  | [] => True
  | (x, _) :: vs => Forall (fun vp => (x < fst vp)%nat) vs /\ vsrt vs
  end.
Definition expr_srt (e : expr) : Prop := Forall (fun t => vsrt (t_vars t)) (e_terms e).
Definition val_srt (v : val) : Prop := match v with VS _ => True | VE e => expr_srt e end.

Lemma vars_prod_lb x v1 : forall v2,
  Forall (fun vp : var_power => (x < fst vp)%nat) v1 -> Forall (fun vp : var_power => (x < fst vp)%nat) v2 ->
  Forall (fun vp : var_power => (x < fst vp)%nat) (vars_prod v1 v2).
Proof.
  induction v1 as [|[x1 p1] r1 IH1].
  - intros [|[x2 p2] r2]; simpl; auto.
  - induction v2 as [|[x2 p2] r2 IH2]; intros H1 H2.
    + now rewrite vars_prod_nil_r.
    + rewrite vars_prod_cons. inversion H1; inversion H2; subst; simpl in *.
      destruct (Nat.ltb x1 x2); [constructor; auto|].
      destruct (Nat.ltb x2 x1); constructor; simpl; auto.
Qed.
Lemma lb_weaken x y (vs : list var_power) : (x < y)%nat ->
  Forall (fun vp : var_power => (y < fst vp)%nat) vs -> Forall (fun vp : var_power => (x < fst vp)%nat) vs.
Proof. intros H. apply Forall_impl. intros; lia. Qed.
Lemma vars_prod_srt v1 : forall v2, vsrt v1 -> vsrt v2 -> vsrt (vars_prod v1 v2).
Proof.
  induction v1 as [|[x1 p1] r1 IH1].
  - intros [|[x2 p2] r2]; simpl; auto.
  - induction v2 as [|[x2 p2] r2 IH2]; intros H1 H2.
    + now rewrite vars_prod_nil_r.
    + rewrite vars_prod_cons. destruct H1 as [A1 B1]. destruct H2 as [A2 B2].
      destruct (Nat.ltb_spec x1 x2).
      * simpl. split; [|apply IH1; simpl; auto].
        apply vars_prod_lb; auto. constructor; simpl; auto. eapply lb_weaken; eauto.
      * destruct (Nat.ltb_spec x2 x1).
        -- change ((x2, p2) :: vars_prod ((x1, p1) :: r1) r2) with ((x2, p2) :: vars_prod ((x1, p1) :: r1) r2).
           split; [|apply IH2; simpl; auto].
           apply vars_prod_lb; auto. constructor; simpl; auto. eapply lb_weaken; eauto.
        -- assert (x1 = x2) by lia. subst. split; [|auto]. apply vars_prod_lb; auto.
Qed.
Lemma term_sum_srt a : forall b, Forall (fun t => vsrt (t_vars t)) a -> Forall (fun t => vsrt (t_vars t)) b ->
  Forall (fun t => vsrt (t_vars t)) (term_sum a b).
Proof.
  induction a as [|t1 r1 IH1].
  - intros [|t2 r2]; simpl; auto.
  - induction b as [|t2 r2 IH2]; intros H1 H2.
    + now rewrite term_sum_nil_r.
    + rewrite term_sum_cons. inversion H1; inversion H2; subst.
      destruct (compare_terms t1 t2).
      * destruct (qz _); auto.
      * constructor; auto.
      * constructor; auto.
Qed.
Lemma e_add_srt a b : expr_srt a -> expr_srt b -> expr_srt (e_add a b).
Proof. unfold expr_srt, e_add; simpl. apply term_sum_srt. Qed.
Lemma e_mulS_srt a q : expr_srt a -> expr_srt (e_mulS a q).
Proof.
  unfold expr_srt, e_mulS. destruct (qz q); simpl; auto.
  intros H. apply Forall_map. eapply Forall_impl; [|exact H]. simpl. auto.
Qed.
Lemma expr_prod_srt a b : expr_srt a -> expr_srt b -> expr_srt (expr_prod a b).
Proof.
  intros Ha Hb. unfold expr_prod. apply e_add_srt; [|now apply e_mulS_srt].
  assert (I : forall t1 ts2 acc, vsrt (t_vars t1) -> Forall (fun t => vsrt (t_vars t)) ts2 -> expr_srt acc ->
     expr_srt (fold_left (fun acc t2 =>
         e_add acc (Expr [Term (vars_prod (t_vars t1) (t_vars t2)) (t_coef t1 * t_coef t2)] 0))
         ts2 acc)).
  { intros t1. induction ts2 as [|t2 ts2 IH]; intros acc H1 H2 H3; simpl; auto.
    inversion H2; subst.
    apply IH; auto. apply e_add_srt; auto. constructor; [|constructor]. simpl. now apply vars_prod_srt. }
  assert (O : forall ts acc, Forall (fun t => vsrt (t_vars t)) ts -> expr_srt acc ->
     expr_srt (fold_left (fun acc t1 =>
      let acc := fold_left (fun acc t2 =>
           e_add acc (Expr [Term (vars_prod (t_vars t1) (t_vars t2)) (t_coef t1 * t_coef t2)] 0))
           (e_terms b) acc in
      e_add acc (e_mulS (Expr [t1] 0) (e_const b))) ts acc)).
  { induction ts as [|t ts IH]; intros acc F W; simpl; auto. inversion F; subst.
    apply IH; auto. cbv zeta. apply e_add_srt; [now apply I|]. apply e_mulS_srt.
    constructor; auto. }
  apply O; [exact Ha|constructor].
Qed.
Lemma v_add_srt a b : val_srt a -> val_srt b -> val_srt (v_add a b).
Proof. destruct a, b; simpl; auto using e_add_srt. Qed.
Lemma v_mul_srt a b : val_srt a -> val_srt b -> val_srt (v_mul a b).
Proof. destruct a, b; simpl; auto using e_mulS_srt, expr_prod_srt. Qed.
Lemma v_neg_srt a : val_srt a -> val_srt (v_neg a).
Proof. destruct a; simpl; auto using e_mulS_srt. Qed.
Lemma v_sub_srt a b : val_srt a -> val_srt b -> val_srt (v_sub a b).
Proof. intros. apply v_add_srt; auto using v_neg_srt. Qed.
Lemma var_expr_srt x : expr_srt (var_expr x).
Proof. repeat constructor. Qed.
Lemma e_pow_srt e n : expr_srt e -> val_srt (e_pow e n).
Proof. intros H. induction n; [exact I|]. cbn [e_pow]. apply v_mul_srt; auto. Qed.
Lemma v_pow_srt v n : val_srt v -> val_srt (v_pow v n).
Proof. destruct v; simpl; auto using e_pow_srt. Qed.
Lemma e_div_srt a z b : e_div a z = Some b -> expr_srt a -> expr_srt b.
Proof.
  unfold e_div. destruct (z =? 1)%Z; [intros [= <-]; auto|].
  destruct (z =? 0)%Z; [discriminate|]. intros [= <-] H. unfold expr_srt in *; simpl.
  apply Forall_map. eapply Forall_impl; [|exact H]. simpl. auto.
Qed.
Lemma subs_get_srt s x v : Forall (fun xv => val_srt (snd xv)) s -> subs_get x s = Some v -> val_srt v.
Proof.
  induction 1 as [|[y w] s H F IH]; simpl; [discriminate|]. destruct (Nat.eqb x y); [intros [= <-]; auto|auto].
Qed.
Lemma v_subst_srt v s w : Forall (fun xv => val_srt (snd xv)) s -> val_srt v -> v_subst v s = Some w -> val_srt w.
Proof.
  intros Hs Hv. destruct v as [q|e]; simpl; [intros [= <-]; exact I|].
  destruct (e_is_const e); [intros [= <-]; exact I|]. unfold e_subst.
  assert (G : forall ts acc v, val_srt acc -> terms_subst s ts acc = Some v -> val_srt v).
  { induction ts as [|t ts IH]; intros acc v Ha; simpl; [intros [= <-]; auto|].
    destruct (term_subst s t) as [u|] eqn:Eu; [|discriminate]. apply IH. apply v_add_srt; auto.
    unfold term_subst in Eu. destruct (map (vp_subst s) (t_vars t)) as [|v0 vs] eqn:E; [discriminate|].
    assert (F : Forall val_srt (v0 :: vs)).
    { rewrite <- E. clear -Hs. induction (t_vars t) as [|[x p] l IH]; simpl; constructor; auto.
      destruct (subs_get x s) as [u|] eqn:Eg.
      - pose proof (subs_get_srt _ _ _ Hs Eg). destruct (Nat.eqb p 1); auto using v_pow_srt.
      - apply e_pow_srt, var_expr_srt. }
    injection Eu as <-. apply v_mul_srt; [|exact I].
    inversion F as [|? ? H0 F1]; subst. clear -H0 F1. revert v0 H0.
    induction F1 as [|u vs Hu _ IH]; intros v0 H0; simpl; auto. apply IH. now apply v_mul_srt. }
  destruct (terms_subst s (e_terms e) (VS 0)) as [v|] eqn:E; [|discriminate]. intros [= <-].
  apply (v_add_srt v (VS (e_const e))); [|exact I]. eapply G; [|exact E]. exact I.
Qed.

(** ** sums *)
Fixpoint qsum (n : nat) (f : nat -> Q) : Q :=
  match n with O => 0 | S n => qsum n f + f n end.
Lemma qsum_ext n f g : (forall i, f i == g i) -> qsum n f == qsum n g.
Proof. intros H. induction n; simpl; [reflexivity|]. now rewrite IHn, H. Qed.
Lemma qsum_add n f g : qsum n (fun i => f i + g i) == qsum n f + qsum n g.
Proof. induction n; simpl; [ring|]. rewrite IHn. ring. Qed.
Lemma qsum_scale n a f : qsum n (fun i => a * f i) == a * qsum n f.
Proof. induction n; simpl; [ring|]. rewrite IHn. ring. Qed.
Lemma qsum_const n a : qsum n (fun _ => a) == a * inject_Z (Z.of_nat n).
Proof.
  induction n; [simpl; ring|]. cbn [qsum]. rewrite IHn, Nat2Z.inj_succ. unfold Z.succ. rewrite inject_Z_plus.
  change (inject_Z 1) with 1. ring.
Qed.
Definition qn (n : nat) : Q := inject_Z (Z.of_nat n).
Lemma qn_S n : qn (S n) == qn n + 1.
Proof. unfold qn. rewrite Nat2Z.inj_succ. unfold Z.succ. rewrite inject_Z_plus. reflexivity. Qed.
Lemma qsum_1 n : qsum n qn == qn n * (qn n - 1) / 2.
Proof. induction n; [reflexivity|]. cbn [qsum]. rewrite IHn, qn_S. field. Qed.
Lemma qsum_2 n : qsum n (fun i => qn i * qn i) == qn n * (qn n - 1) * (2 * qn n - 1) / 6.
Proof. induction n; [reflexivity|]. cbn [qsum]. rewrite IHn, qn_S. field. Qed.
Lemma qsum_3 n : qsum n (fun i => qn i * qn i * qn i) == (qn n * (qn n - 1) / 2) * (qn n * (qn n - 1) / 2).
Proof. induction n; [reflexivity|]. cbn [qsum]. rewrite IHn, qn_S. field. Qed.

(** the assignment with [k] set to [q] *)
Definition upd (r : nat -> Q) (k : nat) (q : Q) : nat -> Q := fun x => if Nat.eqb x k then q else r x.

Lemma ev_vps_filter r k vs : vsrt vs ->
  ev_vps r vs == qpow (r k) (fold_left (fun p vp => if Nat.eqb (fst vp) k then snd vp else p) vs 0%nat) *
                 ev_vps r (filter (fun vp => negb (Nat.eqb (fst vp) k)) vs).
Proof.
  assert (G : forall (vs : list var_power) (p : nat), Forall (fun vp => fst vp <> k) vs ->
     fold_left (fun p vp => if Nat.eqb (fst vp) k then snd vp else p) vs p = p /\
     filter (fun vp => negb (Nat.eqb (fst vp) k)) vs = vs).
  { induction vs0 as [|[x p] vs0 IH]; intros p0 F; simpl; auto. inversion F as [|? ? Hx F']; subst. simpl in Hx.
    apply Nat.eqb_neq in Hx. rewrite Hx. destruct (IH p0 F') as [A B]. simpl. split; [exact A|now rewrite B]. }
  induction vs as [|[x p] vs IH]; intros H.
  - simpl. rewrite qpow_0. ring.
  - destruct H as [F H]. rewrite ev_vps_cons. cbn [fold_left filter fst snd].
    destruct (Nat.eqb_spec x k) as [->|Hx]; cbn [negb].
    + destruct (G vs p) as [A B]; [eapply Forall_impl; [|exact F]; simpl; intros; lia|].
      rewrite A, B. reflexivity.
    + rewrite ev_vps_cons, IH by exact H. ring.
Qed.

Lemma factor_var_ev r t k p rest : vsrt (t_vars t) -> factor_var t k = (p, rest) ->
  ev_term r t == qpow (r k) p * evv r rest.
Proof.
  intros H E. unfold factor_var in E. injection E as <- <-.
  unfold ev_term. rewrite (ev_vps_filter r k _ H).
  destruct (filter (fun vp => negb (Nat.eqb (fst vp) k)) (t_vars t)) as [|vp rs] eqn:Ef.
  - cbn [evv ev_vps fold_right]. ring.
  - cbn [evv]. unfold ev, ev_terms, ev_term. cbn [e_terms e_const fold_right t_coef t_vars]. ring.
Qed.
Lemma ev_vps_upd r k q vs : Forall (fun vp : var_power => Nat.eqb (fst vp) k = false) vs -> ev_vps (upd r k q) vs == ev_vps r vs.
Proof.
  induction 1 as [|[x p] vs Hx _ IH]; [reflexivity|]. rewrite !ev_vps_cons, IH.
  unfold upd. simpl in Hx. now rewrite Hx.
Qed.
Lemma rest_upd r t k p rest q : factor_var t k = (p, rest) -> evv (upd r k q) rest == evv r rest.
Proof.
  unfold factor_var. intros [= <- <-]. destruct (filter (fun vp => negb (Nat.eqb (fst vp) k)) (t_vars t)) as [|vp rs] eqn:Ef; [reflexivity|].
  assert (F : Forall (fun vp => Nat.eqb (fst vp) k = false) (vp :: rs)).
  { rewrite <- Ef. apply Forall_forall. intros v Hv. apply filter_In in Hv. destruct Hv as [_ Hv].
    now apply negb_true_iff in Hv. }
  cbn [evv]. unfold ev, ev_terms, ev_term. cbn [e_terms e_const fold_right t_coef t_vars].
  now rewrite (ev_vps_upd r k q _ F).
Qed.

Definition is_int (q : Q) : Prop := exists z, q == inject_Z z.

Lemma floordiv_exact r v z w : (z <> 0)%Z -> v_floordiv v z = Some w ->
  (match v with VS q => is_int (q / inject_Z z) | VE _ => True end) ->
  evv r w == evv r v / inject_Z z.
Proof.
  intros Hz. destruct v as [q|e]; cbn [v_floordiv].
  - intros E [y Hy]. apply (f_equal (fun o => match o with Some v => v | None => VS 0 end)) in E. subst w.
    cbn [evv]. rewrite (Qfloor_comp _ _ Hy), Qfloor_Z. now rewrite Hy.
  - destruct (e_div e z) as [f|] eqn:E; simpl; [|discriminate]. intros [= <-] _. now apply e_div_ev.
Qed.
Lemma floordiv_some v z : (z <> 0)%Z -> exists w, v_floordiv v z = Some w.
Proof.
  intros Hz. destruct v as [q|e]; simpl; eauto. unfold e_div.
  destruct (z =? 1)%Z; simpl; eauto. destruct (Z.eqb_spec z 0); [congruence|]. simpl; eauto.
Qed.

Lemma even_prod z n : exists y, (z * n * (n - 1) = 2 * y)%Z.
Proof.
  assert (H : Z.Even (n * (n - 1))).
  { destruct (Z.Even_or_Odd n) as [[a ->]|[a ->]]; [exists (a * (2 * a - 1))%Z; ring|exists ((2 * a + 1) * a)%Z; ring]. }
  destruct H as [y E]. exists (z * y)%Z. rewrite <- Z.mul_assoc, E. ring.
Qed.
Lemma six_prod z n : exists y, (z * n * (n - 1) * (2 * n - 1) = 6 * y)%Z.
Proof.
  assert (H : ((n * (n - 1) * (2 * n - 1)) mod 6 = 0)%Z).
  { assert (n mod 6 = 0 \/ n mod 6 = 1 \/ n mod 6 = 2 \/ n mod 6 = 3 \/ n mod 6 = 4 \/ n mod 6 = 5)%Z
      by (pose proof (Z.mod_pos_bound n 6 eq_refl); lia).
    rewrite Z.mul_mod, (Z.mul_mod n), Zminus_mod, (Zminus_mod (2 * n)), (Z.mul_mod 2) by lia.
    repeat destruct H as [H|H]; rewrite H; reflexivity. }
  apply Z.mod_divide in H; [|lia]. destruct H as [y E]. exists (z * y)%Z.
  transitivity (z * (n * (n - 1) * (2 * n - 1)))%Z; [ring|]. rewrite E. ring.
Qed.

(** what the code needs: at most quadratic in [k] (or exactly [k^3]); a number
    instead of an expression is only halved exactly if it is an integer *)
Definition sum_term_ok (k : nat) (N : val) (t : term) : Prop :=
  vsrt (t_vars t) /\
  ((fst (factor_var t k) <= 2)%nat \/ t_vars t = [(k, 3%nat)] /\ t_coef t == 1) /\
  (is_int (t_coef t) \/ match N with VE _ => True | VS _ => False end).

Lemma v_mul_VE_l e b : exists f, v_mul (VE e) b = VE f.
Proof. destruct b; simpl; eauto. Qed.
Lemma v_mul_VE_r a e : exists f, v_mul a (VE e) = VE f.
Proof. destruct a; simpl; eauto. Qed.

Lemma series_term_ev r k N n t : evv r N == qn n -> sum_term_ok k N t ->
  exists w, series_term t k N = Some w /\ evv r w == qsum n (fun i => ev_term (upd r k (qn i)) t).
Proof.
  intros HN (Hs & Hdeg & Hi). unfold series_term.
  destruct (factor_var t k) as [p rest] eqn:Ef. cbn [fst] in Hdeg.
  assert (Sum : qsum n (fun i => ev_term (upd r k (qn i)) t) == evv r rest * qsum n (fun i => qpow (qn i) p)).
  { rewrite <- qsum_scale. apply qsum_ext. intros i. rewrite (factor_var_ev _ _ _ _ _ Hs Ef).
    rewrite (rest_upd r t k p rest _ Ef). unfold upd. rewrite Nat.eqb_refl. ring. }
  assert (Hint : match v_mul (v_mul rest N) (v_sub N (VS 1)) with VS _ => True | VE _ => False end ->
     exists z, rest = VS (t_coef t) /\ t_coef t == inject_Z z).
  { intros H. unfold factor_var in Ef. injection Ef as _ Er. subst rest. destruct (filter (fun vp => negb (Nat.eqb (fst vp) k)) (t_vars t)) as [|v l].
    - destruct Hi as [[z Hz]|Hi]; [eauto|]. destruct N as [x|e]; [contradiction|].
      destruct (v_mul_VE_r (VS (t_coef t)) e) as [f E]. rewrite E in H. destruct (v_mul_VE_l f (v_sub (VE e) (VS 1))) as [g E'].
      rewrite E' in H. contradiction.
    - destruct (v_mul_VE_l (Expr [Term (v :: l) (t_coef t)] 0) N) as [f E]. rewrite E in H.
      destruct (v_mul_VE_l f (v_sub N (VS 1))) as [g E']. rewrite E' in H. contradiction. }
  assert (E1 : evv r (v_mul (v_mul rest N) (v_sub N (VS 1))) == evv r rest * qn n * (qn n - 1)).
  { rewrite !v_mul_ev, v_sub_ev, HN. reflexivity. }
  destruct p as [|[|[|[|p]]]].
  - eexists. split; [reflexivity|]. rewrite Sum, v_mul_ev, HN.
    rewrite (qsum_ext n _ (fun _ => 1)) by (intros; apply qpow_0). rewrite qsum_const. unfold qn. ring.
  - destruct (floordiv_some (v_mul (v_mul rest N) (v_sub N (VS 1))) 2 ltac:(lia)) as [w E]. exists w. split; [exact E|].
    rewrite (floordiv_exact r _ 2 w ltac:(lia) E).
    + rewrite E1, Sum. rewrite (qsum_ext n _ qn) by (intros; apply qpow_1). rewrite qsum_1. field.
    + destruct (v_mul (v_mul rest N) (v_sub N (VS 1))) as [q|e] eqn:Ev; [|exact I].
      destruct (Hint I) as (z & -> & Hz). cbn [evv] in E1.
      destruct (even_prod z (Z.of_nat n)) as [y Hy]. exists y.
      rewrite E1. cbn [evv]. rewrite Hz. unfold qn.
      setoid_replace (inject_Z z * inject_Z (Z.of_nat n) * (inject_Z (Z.of_nat n) - 1)) with (inject_Z (2 * y)).
      * rewrite inject_Z_mult. change (inject_Z 2) with 2. field.
      * rewrite <- Hy, !inject_Z_mult. change (Z.of_nat n - 1)%Z with (Z.of_nat n + -1)%Z. rewrite inject_Z_plus. reflexivity.
  - set (v6 := v_mul (v_mul (v_mul rest N) (v_sub N (VS 1))) (v_sub (v_mul (VS 2) N) (VS 1))).
    assert (E2 : evv r v6 == evv r rest * qn n * (qn n - 1) * (2 * qn n - 1)).
    { unfold v6. rewrite v_mul_ev, E1, v_sub_ev, v_mul_ev, HN. reflexivity. }
    destruct (floordiv_some v6 6 ltac:(lia)) as [w E]. exists w. split; [exact E|].
    rewrite (floordiv_exact r _ 6 w ltac:(lia) E).
    + rewrite E2, Sum. rewrite (qsum_ext n _ (fun i => qn i * qn i)).
      * rewrite qsum_2. change (inject_Z 6) with 6. field.
      * intros i. change 2%nat with (1 + 1)%nat. now rewrite qpow_add, qpow_1.
    + destruct v6 as [q|e] eqn:Ev; [|exact I].
      assert (HI : match v_mul (v_mul rest N) (v_sub N (VS 1)) with VS _ => True | VE _ => False end).
      { destruct (v_mul (v_mul rest N) (v_sub N (VS 1))) as [q'|e']; [exact I|]. unfold v6 in Ev.
        destruct (v_mul_VE_l e' (v_sub (v_mul (VS 2) N) (VS 1))) as [g Eg]. congruence. }
      destruct (Hint HI) as (z & -> & Hz). cbn [evv] in E2.
      destruct (six_prod z (Z.of_nat n)) as [y Hy]. exists y.
      rewrite E2. cbn [evv]. rewrite Hz. unfold qn.
      setoid_replace (inject_Z z * inject_Z (Z.of_nat n) * (inject_Z (Z.of_nat n) - 1) * (2 * inject_Z (Z.of_nat n) - 1))
        with (inject_Z (6 * y)).
      * rewrite inject_Z_mult. change (inject_Z 6) with 6. field.
      * rewrite <- Hy, !inject_Z_mult. change (Z.of_nat n - 1)%Z with (Z.of_nat n + -1)%Z.
        change (2 * Z.of_nat n - 1)%Z with (2 * Z.of_nat n + -1)%Z. rewrite !inject_Z_plus, inject_Z_mult. reflexivity.
  - destruct Hdeg as [Hd|[Hv Hc]]; [lia|].
    destruct (floordiv_some (v_mul (v_mul rest N) (v_sub N (VS 1))) 2 ltac:(lia)) as [w E]. rewrite E.
    eexists. split; [reflexivity|]. rewrite v_pow_ev.
    assert (Er : evv r rest == 1).
    { unfold factor_var in Ef. rewrite Hv in Ef. cbn [fold_left filter fst snd] in Ef. rewrite Nat.eqb_refl in Ef.
      injection Ef as <-. exact Hc. }
    assert (Ew : evv r w == qn n * (qn n - 1) / 2).
    { rewrite (floordiv_exact r _ 2 w ltac:(lia) E).
      - rewrite E1, Er. field.
      - destruct (v_mul (v_mul rest N) (v_sub N (VS 1))) as [q|e] eqn:Ev; [|exact I]. cbn [evv] in E1.
        destruct (even_prod 1 (Z.of_nat n)) as [y Hy]. exists y. rewrite E1, Er. unfold qn.
        setoid_replace (1 * inject_Z (Z.of_nat n) * (inject_Z (Z.of_nat n) - 1)) with (inject_Z (2 * y)).
        + rewrite inject_Z_mult. change (inject_Z 2) with 2. field.
        + rewrite <- Hy, !inject_Z_mult. change (Z.of_nat n - 1)%Z with (Z.of_nat n + -1)%Z. rewrite inject_Z_plus. reflexivity. }
    rewrite (qpow_comp _ _ 2 Ew). change 2%nat with (1 + 1)%nat. rewrite qpow_add, qpow_1, Sum, Er.
    rewrite (qsum_ext n _ (fun i => qn i * qn i * qn i)).
    + rewrite qsum_3. ring.
    + intros i. change 3%nat with (1 + 1 + 1)%nat. now rewrite !qpow_add, qpow_1.
  - destruct Hdeg as [Hd|[Hv _]]; [lia|]. exfalso. unfold factor_var in Ef. rewrite Hv in Ef.
    cbn [fold_left filter fst snd] in Ef. rewrite Nat.eqb_refl in Ef. discriminate.
Qed.

Lemma series_sum_ev r k N n e : evv r N == qn n -> Forall (sum_term_ok k N) (e_terms e) ->
  exists w, series_sum (VE e) k N = Some w /\ evv r w == qsum n (fun i => ev (upd r k (qn i)) e).
Proof.
  intros HN F. unfold series_sum.
  assert (G : forall total, exists w, series_terms (e_terms e) k N total = Some w /\
     evv r w == evv r total + qsum n (fun i => ev_terms (upd r k (qn i)) (e_terms e))).
  { induction F as [|t ts Ht _ IH]; intros total.
    - exists total. split; [reflexivity|]. rewrite (qsum_ext n _ (fun _ => 0)) by reflexivity. rewrite qsum_const. ring.
    - cbn [series_terms]. destruct (series_term_ev r k N n t HN Ht) as (u & -> & Eu).
      destruct (IH (v_add total u)) as (w & -> & Ew). exists w. split; [reflexivity|].
      rewrite Ew, v_add_ev, Eu.
      rewrite (qsum_ext n (fun i => ev_terms (upd r k (qn i)) (t :: ts))
                 (fun i => ev_term (upd r k (qn i)) t + ev_terms (upd r k (qn i)) ts)) by (intros; reflexivity).
      rewrite qsum_add. ring. }
  destruct (G (v_mul (VS (e_const e)) N)) as (w & -> & Ew). exists w. split; [reflexivity|].
  rewrite Ew, v_mul_ev, HN. cbn [evv]. unfold ev. rewrite qsum_add, qsum_const. unfold qn. ring.
Qed.
