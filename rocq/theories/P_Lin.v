(** * Linear integer expressions: the values met by the rule prover *)
Require Import ZArith List Lia Bool Arith QArith Qround Lqa Qcanon.
From Verif Require Import M_Expr P_Expr M_Tape M_Simulator M_Prover.
Import ListNotations.
Close Scope Qc_scope.
Open Scope Z_scope.

Definition rho (sg : nat -> Z) : nat -> Q := fun x => inject_Z (sg x).

Lemma injZ_add a b : (inject_Z a + inject_Z b)%Q = inject_Z (a + b).
Proof. unfold inject_Z, Qplus; simpl. now rewrite !Z.mul_1_r. Qed.
Lemma injZ_mul a b : (inject_Z a * inject_Z b)%Q = inject_Z (a * b).
Proof. reflexivity. Qed.
Lemma injZ_opp a : (- inject_Z a)%Q = inject_Z (- a).
Proof. reflexivity. Qed.
Lemma injZ_inj a b : (inject_Z a == inject_Z b)%Q -> a = b.
Proof. unfold inject_Z, Qeq; simpl. lia. Qed.
Lemma injZ_le a b : (inject_Z a <= inject_Z b)%Q <-> a <= b.
Proof. unfold inject_Z, Qle; simpl. lia. Qed.
Lemma qz_inj z : qz (inject_Z z) = (z =? 0).
Proof.
  destruct (z =? 0) eqn:E.
  - apply Z.eqb_eq in E. subst. reflexivity.
  - apply qz_false. intros H. apply (injZ_inj z 0) in H. lia.
Qed.
Lemma q_int_inj z : q_int (inject_Z z) = Some z.
Proof.
  unfold q_int. rewrite (Qred_identity (inject_Z z)); [reflexivity|].
  simpl. apply Z.gcd_1_r.
Qed.
Lemma q_int_eq q z : q_int q = Some z -> (q == inject_Z z)%Q.
Proof.
  unfold q_int. destruct (Pos.eqb (Qden (Qred q)) 1) eqn:E; [|discriminate].
  intros [= <-]. apply Pos.eqb_eq in E. rewrite <- (Qred_correct q) at 1.
  destruct (Qred q) as [a b]; simpl in *. now subst b.
Qed.

(** ** linear values *)
Definition lterm (t : term) : Prop := exists x z, t = Term [(x, 1%nat)] (inject_Z z).
Definition lexpr (e : expr) : Prop := Forall lterm (e_terms e) /\ exists z, e_const e = inject_Z z.
Definition lv (v : val) : Prop :=
  match v with VS q => exists z, q = inject_Z z | VE e => lexpr e end.

Lemma term_sum_lin a : forall b, Forall lterm a -> Forall lterm b -> Forall lterm (term_sum a b).
Proof.
  induction a as [|t1 r1 IH1].
  - intros [|t2 r2]; simpl; auto.
  - induction b as [|t2 r2 IH2]; intros H1 H2.
    + rewrite term_sum_nil_r. exact H1.
    + rewrite term_sum_cons. inversion H1; subst. inversion H2; subst.
      destruct (compare_terms t1 t2).
      * destruct (qz _); auto. constructor; auto.
        destruct H3 as (x & z & ->). destruct H5 as (y & w & ->). simpl.
        exists x, (z + w). now rewrite injZ_add.
      * constructor; auto.
      * constructor; auto.
Qed.
Lemma v_add_lin a b : lv a -> lv b -> lv (v_add a b).
Proof.
  destruct a as [x|e], b as [y|f]; simpl.
  - intros [z ->] [w ->]. rewrite injZ_add. eauto.
  - intros [z ->] [F [w E]]. split; simpl; auto. rewrite E, injZ_add. eauto.
  - intros [F [w E]] [z ->]. split; simpl; auto. rewrite E, injZ_add. eauto.
  - intros [F [w E]] [F' [w' E']]. split; simpl; [now apply term_sum_lin|].
    rewrite E, E', injZ_add. eauto.
Qed.
Lemma e_mulS_lin e z : lexpr e -> lexpr (e_mulS e (inject_Z z)).
Proof.
  intros [F [w E]]. unfold e_mulS. destruct (qz _).
  - split; simpl; auto. exists 0. reflexivity.
  - split; simpl.
    + apply Forall_map. eapply Forall_impl; [|exact F]. intros t (x & y & ->). simpl.
      exists x, (y * z). reflexivity.
    + rewrite E. exists (w * z). reflexivity.
Qed.
Lemma v_mul_lin z v : lv v -> lv (v_mul (VS (inject_Z z)) v).
Proof.
  destruct v as [q|e]; simpl; [|apply e_mulS_lin]. intros [w ->]. exists (z * w). reflexivity.
Qed.
Lemma v_mul_lin_r z v : lv v -> lv (v_mul v (VS (inject_Z z))).
Proof.
  destruct v as [q|e]; simpl; [|apply e_mulS_lin]. intros [w ->]. exists (w * z). reflexivity.
Qed.
Lemma v_neg_lin v : lv v -> lv (v_neg v).
Proof.
  destruct v as [q|e]; simpl; [intros [w ->]; exists (- w); reflexivity|].
  apply (e_mulS_lin e (-1)).
Qed.
Lemma v_sub_lin a b : lv a -> lv b -> lv (v_sub a b).
Proof. intros. apply v_add_lin; auto using v_neg_lin. Qed.
Lemma VS_lin z : lv (VS (inject_Z z)).
Proof. simpl. eauto. Qed.
Lemma var_plus_lin x z : lv (VE (var_plus x (inject_Z z))).
Proof. split; simpl; eauto. constructor; auto. exists x, 1. reflexivity. Qed.
Lemma var_expr_lin x : lv (VE (var_expr x)).
Proof. apply (var_plus_lin x 0). Qed.

(** ** values at an integer assignment *)
Lemma lterms_int sg ts : Forall lterm ts -> exists z, (ev_terms (rho sg) ts == inject_Z z)%Q.
Proof.
  induction 1 as [|t ts (x & z & ->) _ [w IH]]; simpl.
  - exists 0. reflexivity.
  - exists (z * sg x + w). rewrite IH, <- injZ_add. unfold ev_term; simpl.
    rewrite qpow_1. unfold rho. rewrite <- injZ_mul. ring.
Qed.
Lemma lv_int sg v : lv v -> exists z, (evv (rho sg) v == inject_Z z)%Q.
Proof.
  destruct v as [q|e]; simpl.
  - intros [z ->]. exists z. reflexivity.
  - intros [F [w E]]. destruct (lterms_int sg _ F) as [z Hz]. exists (z + w).
    unfold ev. rewrite Hz, E. now rewrite injZ_add.
Qed.

Definition zev (sg : nat -> Z) (v : val) : Z := Qfloor (evv (rho sg) v).

Lemma zev_eq sg v z : (evv (rho sg) v == inject_Z z)%Q -> zev sg v = z.
Proof. intros H. unfold zev. rewrite (Qfloor_comp _ _ H). apply Qfloor_Z. Qed.
Lemma zev_spec sg v : lv v -> (evv (rho sg) v == inject_Z (zev sg v))%Q.
Proof. intros H. destruct (lv_int sg v H) as [z Hz]. now rewrite (zev_eq _ _ _ Hz). Qed.
Lemma zev_VS sg z : zev sg (VS (inject_Z z)) = z.
Proof. apply zev_eq. reflexivity. Qed.
Lemma zev_add sg a b : lv a -> lv b -> zev sg (v_add a b) = zev sg a + zev sg b.
Proof.
  intros Ha Hb. apply zev_eq. rewrite v_add_ev, (zev_spec sg a Ha), (zev_spec sg b Hb).
  now rewrite injZ_add.
Qed.
Lemma zev_mul sg z v : lv v -> zev sg (v_mul (VS (inject_Z z)) v) = z * zev sg v.
Proof. intros Hv. apply zev_eq. rewrite v_mul_ev, (zev_spec sg v Hv). reflexivity. Qed.
Lemma zev_sub sg a b : lv a -> lv b -> zev sg (v_sub a b) = zev sg a - zev sg b.
Proof.
  intros Ha Hb. apply zev_eq. rewrite v_sub_ev, (zev_spec sg a Ha), (zev_spec sg b Hb).
  unfold Qminus. now rewrite injZ_opp, injZ_add.
Qed.
Lemma zev_var_plus sg x z : zev sg (VE (var_plus x (inject_Z z))) = sg x + z.
Proof. apply zev_eq. simpl. rewrite var_plus_ev. unfold rho. now rewrite injZ_add. Qed.
Lemma zev_var sg x : zev sg (VE (var_expr x)) = sg x.
Proof. apply zev_eq. simpl. rewrite var_expr_ev. reflexivity. Qed.

Lemma lv_pos v : lv v -> val_pos v.
Proof.
  destruct v as [q|e]; simpl; auto. intros [F _]. eapply Forall_impl; [|exact F].
  intros t (x & z & ->); simpl. split; [discriminate|]. constructor; auto.
Qed.

(** ** substitution *)
Definition lsubs (s : subs) : Prop := Forall (fun xv => lv (snd xv)) s.
Lemma subs_get_lin s x v : lsubs s -> subs_get x s = Some v -> lv v.
Proof.
  induction 1 as [|[y w] s H _ IH]; simpl; [discriminate|].
  destruct (Nat.eqb x y); auto. intros [= <-]. exact H.
Qed.
Lemma terms_subst_lin s ts : lsubs s -> Forall lterm ts -> forall acc, lv acc ->
  exists v, terms_subst s ts acc = Some v /\ lv v.
Proof.
  intros Hs. induction 1 as [|t ts (x & z & ->) _ IH]; intros acc Ha.
  - exists acc. auto.
  - cbn [terms_subst term_subst map t_vars t_coef fold_left].
    apply IH. apply v_add_lin; auto. apply v_mul_lin_r. unfold vp_subst.
    destruct (subs_get x s) as [v|] eqn:E.
    + simpl. eapply subs_get_lin; eauto.
    + change (lv (v_mul (VS (inject_Z 1)) (VE (var_expr x)))). apply v_mul_lin, var_expr_lin.
Qed.
Lemma v_subst_lin v s : lv v -> lsubs s -> exists w, v_subst v s = Some w /\ lv w.
Proof.
  destruct v as [q|e]; simpl.
  - intros H _. exists (VS q). auto.
  - intros [F [w E]] Hs. destruct (e_is_const e).
    + exists (VS (e_const e)). split; auto. simpl. eauto.
    + unfold e_subst. destruct (terms_subst_lin s _ Hs F (VS (inject_Z 0))) as (v & Ev & Hv);
        [simpl; eauto|].
      change (VS 0) with (VS (inject_Z 0)). rewrite Ev. eexists. split; [reflexivity|].
      apply v_add_lin; auto. rewrite E. apply VS_lin.
Qed.
Lemma e_subst_lin e s : lexpr e -> lsubs s -> exists w, e_subst e s = Some w /\ lv w.
Proof.
  intros [F [w E]] Hs. unfold e_subst.
  destruct (terms_subst_lin s _ Hs F (VS (inject_Z 0))) as (v & Ev & Hv); [simpl; eauto|].
  change (VS 0) with (VS (inject_Z 0)). rewrite Ev. eexists. split; [reflexivity|].
  apply v_add_lin; auto. rewrite E. apply VS_lin.
Qed.

Lemma ev_terms_ext r r' ts : (forall t x p, In t ts -> In (x, p) (t_vars t) -> (r x == r' x)%Q) ->
  (ev_terms r ts == ev_terms r' ts)%Q.
Proof.
  induction ts as [|t ts IH]; simpl; intros H; [reflexivity|].
  rewrite IH by (intros; eapply H; eauto; now right).
  assert (G : (ev_vps r (t_vars t) == ev_vps r' (t_vars t))%Q).
  { assert (H' : forall x p, In (x, p) (t_vars t) -> (r x == r' x)%Q)
      by (intros; eapply H; eauto; now left).
    clear -H'. induction (t_vars t) as [|[x p] vs IH]; simpl; [reflexivity|].
    rewrite IH by (intros; eapply H'; right; eauto).
    rewrite (qpow_comp _ _ p (H' x p (or_introl eq_refl))). reflexivity. }
  unfold ev_term. now rewrite G.
Qed.
Lemma evv_ext r r' v : (forall x, In x (v_variables v) -> (r x == r' x)%Q) ->
  (evv r v == evv r' v)%Q.
Proof.
  destruct v as [q|e]; simpl; [reflexivity|]. unfold ev, e_is_const, e_variables.
  destruct (e_terms e) as [|t0 ts0] eqn:E; [reflexivity|]. rewrite <- E. clear E.
  intros H. rewrite (ev_terms_ext r r' (e_terms e)); [reflexivity|].
  intros t x p Ht Hx. apply H. apply in_flat_map. exists t. split; auto.
  apply in_map_iff. exists (x, p). auto.
Qed.

(** value after substituting = value at the substituted assignment *)
Lemma zev_subst sg sg' v s w : lv v -> v_subst v s = Some w ->
  (forall x, In x (v_variables v) ->
     match subs_get x s with Some u => lv u /\ zev sg u = sg' x | None => sg x = sg' x end) ->
  zev sg w = zev sg' v.
Proof.
  intros Hv Ew H. apply zev_eq. rewrite (v_subst_ev _ _ _ _ Ew), <- (zev_spec sg' v Hv).
  apply evv_ext. intros x Hx. specialize (H x Hx). unfold rho_subs.
  destruct (subs_get x s) as [u|].
  - destruct H as [Hu H]. rewrite (zev_spec sg u Hu), H. reflexivity.
  - unfold rho. now rewrite H.
Qed.

(** only the variables of a value matter *)
Lemma zev_ext sg sg' v : (forall x, In x (v_variables v) -> sg x = sg' x) ->
  zev sg v = zev sg' v.
Proof.
  intros H. unfold zev. apply Qfloor_comp. apply evv_ext. intros x Hx. unfold rho.
  now rewrite (H x Hx).
Qed.

(** substituting numbers for all variables gives an int *)
Lemma v_subst_num v s : lv v -> lsubs s ->
  (forall x, In x (v_variables v) -> exists z, subs_get x s = Some (VS (inject_Z z))) ->
  exists z, v_subst v s = Some (VS (inject_Z z)).
Proof.
  intros Hv Hs H. destruct (v_subst_lin v s Hv Hs) as (w & Ew & Hw).
  enough (exists q, w = VS q) as [q ->].
  { destruct Hw as [z ->]. eauto. }
  destruct v as [q|e]; simpl in *; [injection Ew as <-; eauto|].
  unfold e_is_const, e_variables in *. destruct (e_terms e) as [|t0 ts0] eqn:E;
    [injection Ew as <-; eauto|]. rewrite <- E in H.
  unfold e_subst in Ew. destruct (terms_subst s (e_terms e) (VS 0)) as [u|] eqn:Eu; [|discriminate].
  apply terms_subst_const in Eu.
  - destruct Eu as [q ->]. injection Ew as <-. simpl. eauto.
  - intros t Ht x p Hx. destruct (H x) as [z Hz]; [|eauto].
    apply in_flat_map. exists t. split; auto. apply in_map_iff. exists (x, p). auto.
Qed.

(** ** variables of results *)
Lemma term_sum_vars a x : forall b, In x (flat_map (fun t => map fst (t_vars t)) (term_sum a b)) ->
  In x (flat_map (fun t => map fst (t_vars t)) a) \/ In x (flat_map (fun t => map fst (t_vars t)) b).
Proof.
  induction a as [|t1 r1 IH1].
  - intros [|t2 r2]; simpl; auto.
  - induction b as [|t2 r2 IH2].
    + rewrite term_sum_nil_r. auto.
    + rewrite term_sum_cons. destruct (compare_terms t1 t2).
      * destruct (qz _).
        -- intros H. apply IH1 in H. simpl. rewrite !in_app_iff. tauto.
        -- simpl. rewrite !in_app_iff. intros [H|H]; auto. apply IH1 in H. tauto.
      * simpl. rewrite !in_app_iff. intros [H|H]; auto. apply IH1 in H. simpl in H.
        rewrite in_app_iff in H. tauto.
      * simpl. rewrite !in_app_iff. intros [H|H]; auto. apply IH2 in H. simpl in H.
        rewrite in_app_iff in H. tauto.
Qed.

Lemma v_variables_E e x : In x (v_variables (VE e)) <-> In x (e_variables e).
Proof.
  simpl. unfold e_is_const, e_variables. destruct (e_terms e); simpl; tauto.
Qed.
Lemma v_add_vars a b x : In x (v_variables (v_add a b)) -> In x (v_variables a) \/ In x (v_variables b).
Proof.
  destruct a as [p|e], b as [q|f]; cbn [v_add]; rewrite ?v_variables_E; auto.
  apply term_sum_vars.
Qed.
Lemma e_mulS_vars e q x : In x (e_variables (e_mulS e q)) -> In x (e_variables e).
Proof.
  unfold e_mulS. destruct (qz q); simpl; [tauto|]. unfold e_variables; simpl.
  rewrite !in_flat_map. intros (t & Ht & Hx). apply in_map_iff in Ht.
  destruct Ht as (t' & <- & Ht'). eauto.
Qed.
Lemma v_mul_vars z v x : In x (v_variables (v_mul (VS z) v)) -> In x (v_variables v).
Proof. destruct v; cbn [v_mul]; auto. rewrite !v_variables_E. apply e_mulS_vars. Qed.
Lemma v_mul_vars_r z v x : In x (v_variables (v_mul v (VS z))) -> In x (v_variables v).
Proof. destruct v; cbn [v_mul]; auto. rewrite !v_variables_E. apply e_mulS_vars. Qed.
Lemma v_neg_vars v x : In x (v_variables (v_neg v)) -> In x (v_variables v).
Proof. destruct v; cbn [v_neg]; auto. rewrite !v_variables_E. apply e_mulS_vars. Qed.
Lemma v_sub_vars a b x : In x (v_variables (v_sub a b)) -> In x (v_variables a) \/ In x (v_variables b).
Proof. intros H. apply v_add_vars in H. destruct H; auto. right. now apply v_neg_vars. Qed.

Lemma terms_subst_vars s ts x : lsubs s -> Forall lterm ts -> forall acc v,
  terms_subst s ts acc = Some v -> In x (v_variables v) ->
  In x (v_variables acc) \/
  exists y, In y (flat_map (fun t => map fst (t_vars t)) ts) /\
    match subs_get y s with Some u => In x (v_variables u) | None => x = y end.
Proof.
  intros Hs. induction 1 as [|t ts (y & z & ->) _ IH]; intros acc v.
  - simpl. intros [= <-]. auto.
  - cbn [terms_subst term_subst map t_vars t_coef fold_left]. intros E Hx.
    destruct (IH _ _ E Hx) as [H|(w & Hw & Hm)].
    + apply v_add_vars in H. destruct H as [H|H]; auto. right. exists y.
      simpl. split; auto. apply v_mul_vars_r in H. unfold vp_subst in H.
      destruct (subs_get y s) as [u|]; [exact H|].
      change (In x (v_variables (v_mul (VS (inject_Z 1)) (VE (var_expr y))))) in H.
      apply v_mul_vars in H. simpl in H. destruct H as [->|[]]. reflexivity.
    + right. exists w. simpl. auto.
Qed.
Lemma v_subst_vars v s w x : lv v -> lsubs s -> v_subst v s = Some w -> In x (v_variables w) ->
  exists y, In y (v_variables v) /\
    match subs_get y s with Some u => In x (v_variables u) | None => x = y end.
Proof.
  intros Hv Hs. destruct v as [q|e]; cbn [v_subst].
  - intros [= <-]. simpl. tauto.
  - destruct (e_is_const e) eqn:Ec; [intros [= <-]; simpl; tauto|].
    unfold e_subst. destruct (terms_subst s (e_terms e) (VS 0)) as [u|] eqn:Eu; [|discriminate].
    intros [= <-] Hx. apply v_add_vars in Hx. destruct Hx as [Hx|[]].
    destruct Hv as [F _]. destruct (terms_subst_vars s _ x Hs F _ _ Eu Hx) as [[]|(y & Hy & Hm)].
    exists y. split; auto. apply v_variables_E. exact Hy.
Qed.

(** ** series sums *)

(** [series n f] = f 0 + ... + f (n-1) *)
Fixpoint series (n : nat) (f : nat -> Z) : Z :=
  match n with O => 0 | S n => series n f + f n end.

Lemma series_ext n f g : (forall i, (i < n)%nat -> f i = g i) -> series n f = series n g.
Proof. induction n as [|n IH]; simpl; intros H; auto. rewrite IH, H; auto. Qed.
Lemma series_const n a : series n (fun _ => a) = a * Z.of_nat n.
Proof. induction n as [|n IH]; simpl; lia. Qed.
Lemma series_add n f g : series n (fun i => f i + g i) = series n f + series n g.
Proof. induction n as [|n IH]; simpl; lia. Qed.
Lemma series_scale n a f : series n (fun i => a * f i) = a * series n f.
Proof. induction n as [|n IH]; simpl; lia. Qed.
Lemma series_lin n : 2 * series n Z.of_nat = Z.of_nat n * (Z.of_nat n - 1).
Proof. induction n as [|n IH]; simpl series; lia. Qed.

Lemma floor_half a b : a = 2 * b -> Qfloor (inject_Z a / inject_Z 2) = b.
Proof.
  intros ->. transitivity (Qfloor (inject_Z b)); [|apply Qfloor_Z]. apply Qfloor_comp.
  rewrite <- injZ_mul, Qmult_comm. apply Qdiv_mult_l. discriminate.
Qed.

(** linear in [k] only *)
Lemma series_terms_lin k (N : nat) ts : Forall lterm ts ->
  (forall x, In x (flat_map (fun t => map fst (t_vars t)) ts) -> x = k) -> forall total,
  series_terms ts k (VS (inject_Z (Z.of_nat N))) (VS (inject_Z total)) =
    Some (VS (inject_Z (total + series N (fun i => Qfloor (ev_terms (rho (fun _ => Z.of_nat i)) ts))))).
Proof.
  intros F Hk. revert Hk. induction F as [|t ts (x & z & ->) F IH]; intros Hk total.
  - cbn [series_terms]. do 3 f_equal. rewrite (series_ext N _ (fun _ => 0)).
    + rewrite series_const. lia.
    + intros. reflexivity.
  - assert (x = k) by (apply Hk; simpl; auto). subst x.
    cbn [series_terms]. unfold series_term, factor_var. cbn [t_vars t_coef fold_left filter fst snd].
    rewrite Nat.eqb_refl. cbn [negb v_floordiv v_mul v_sub v_neg v_add].
    change (- (1))%Q with (inject_Z (-1)). rewrite (injZ_add (Z.of_nat N) (-1)), !injZ_mul.
    rewrite (floor_half _ (z * series N Z.of_nat))
      by (pose proof (series_lin N) as H; transitivity (z * (2 * series N Z.of_nat)); [rewrite H; ring|ring]).
    rewrite injZ_add. rewrite IH by (intros y Hy; apply Hk; simpl; auto).
    do 3 f_equal. rewrite <- Z.add_assoc. f_equal. rewrite <- series_scale, <- series_add.
    apply series_ext. intros i Hi. rewrite ev_terms_cons.
    destruct (lterms_int (fun _ => Z.of_nat i) ts F) as [w Hw].
    rewrite (Qfloor_comp _ _ Hw), Qfloor_Z. symmetry.
    rewrite <- (Qfloor_Z (z * Z.of_nat i + w)). apply Qfloor_comp.
    rewrite Hw. unfold ev_term; simpl. rewrite qpow_1. unfold rho.
    rewrite <- injZ_add, <- injZ_mul. ring.
Qed.

Lemma series_sum_lin v k (N : nat) : lv v -> (forall x, In x (v_variables v) -> x = k) ->
  series_sum v k (VS (inject_Z (Z.of_nat N))) =
    Some (VS (inject_Z (series N (fun i => zev (fun _ => Z.of_nat i) v)))).
Proof.
  intros Hv Hk. destruct v as [q|e]; unfold series_sum.
  - destruct Hv as [z ->]. rewrite q_int_inj. cbn [v_mul]. rewrite injZ_mul. do 3 f_equal.
    rewrite (series_ext N _ (fun _ => z)); [now rewrite series_const|].
    intros. apply zev_VS.
  - pose proof Hv as [F [w E]]. cbn [v_mul]. rewrite E, injZ_mul.
    rewrite series_terms_lin; auto.
    2:{ intros x Hx. apply Hk, v_variables_E. exact Hx. }
    do 3 f_equal. rewrite <- series_const, <- series_add. apply series_ext. intros i _.
    destruct (lterms_int (fun _ => Z.of_nat i) _ F) as [u Hu].
    rewrite (Qfloor_comp _ _ Hu), Qfloor_Z. symmetry. apply zev_eq. simpl. unfold ev.
    rewrite Hu, E, injZ_add. now rewrite Z.add_comm.
Qed.
