(** * Symbolic expressions evaluate like polynomials *)
Require Import ZArith List Lia Bool Arith QArith Qpower Qround Lqa Setoid.
From Verif Require Import M_Expr.
Import ListNotations.
Open Scope Q_scope.

(** ** Specification: value of an expression under an assignment *)
Definition qpow (q : Q) (n : nat) : Q := Qpower q (Z.of_nat n).

Definition ev_vps (rho : nat -> Q) (vs : list var_power) : Q :=
  fold_right (fun vp acc => qpow (rho (fst vp)) (snd vp) * acc) 1 vs.
Definition ev_term (rho : nat -> Q) (t : term) : Q := t_coef t * ev_vps rho (t_vars t).
Definition ev_terms (rho : nat -> Q) (ts : list term) : Q :=
  fold_right (fun t acc => ev_term rho t + acc) 0 ts.
Definition ev (rho : nat -> Q) (e : expr) : Q := ev_terms rho (e_terms e) + e_const e.
Definition evv (rho : nat -> Q) (v : val) : Q := match v with VS q => q | VE e => ev rho e end.

Lemma qpow_S q n : qpow q (S n) == qpow q n * q.
Proof.
  unfold qpow. rewrite Nat2Z.inj_succ. unfold Z.succ.
  destruct (Qeq_dec q 0) as [E|E].
  - rewrite !E. rewrite (Qpower_0 (Z.of_nat n + 1)) by lia. ring.
  - rewrite Qpower_plus by exact E. simpl. reflexivity.
Qed.

Lemma qpow_0 q : qpow q 0 == 1.
Proof. reflexivity. Qed.

Lemma qpow_1 q : qpow q 1 == q.
Proof. rewrite qpow_S, qpow_0. ring. Qed.

Lemma qpow_add q n m : qpow q (n + m) == qpow q n * qpow q m.
Proof.
  induction n as [|n IH]; simpl.
  - rewrite qpow_0. ring.
  - rewrite !qpow_S, IH. ring.
Qed.

Lemma qpow_comp q q' n : q == q' -> qpow q n == qpow q' n.
Proof.
  intros E. induction n as [|n IH]; [reflexivity|]. rewrite !qpow_S, IH, E. reflexivity.
Qed.

Lemma qz_true q : qz q = true <-> q == 0.
Proof. apply Qeq_bool_iff. Qed.
Lemma qz_false q : qz q = false <-> ~ q == 0.
Proof. split; intros H. - intros E. apply qz_true in E. congruence.
  - destruct (qz q) eqn:E; auto. apply qz_true in E. contradiction. Qed.
Lemma qlt_true a b : qlt a b = true <-> a < b.
Proof.
  unfold qlt. rewrite negb_true_iff. split; intros H.
  - apply Qnot_le_lt. intros L. apply Qle_bool_iff in L. congruence.
  - destruct (Qle_bool b a) eqn:E; auto. apply Qle_bool_iff in E. lra.
Qed.
Lemma qlt_false a b : qlt a b = false <-> b <= a.
Proof.
  unfold qlt. rewrite negb_false_iff. apply Qle_bool_iff.
Qed.

Lemma compare_vps_eq v1 : forall v2,
  length v1 = length v2 -> compare_vps v1 v2 = Eq -> v1 = v2.
Proof.
  induction v1 as [|[x p] v1 IH]; destruct v2 as [|[y q] v2]; simpl; intros Hl E;
    try discriminate; auto.
  destruct (Nat.ltb x y) eqn:E1; [discriminate|]. destruct (Nat.ltb y x) eqn:E2; [discriminate|].
  destruct (Nat.ltb p q) eqn:E3; [discriminate|]. destruct (Nat.ltb q p) eqn:E4; [discriminate|].
  apply Nat.ltb_ge in E1, E2, E3, E4.
  assert (x = y) by lia. assert (p = q) by lia. subst. f_equal. apply IH; auto.
Qed.

Lemma compare_terms_eq t1 t2 : compare_terms t1 t2 = Eq -> t_vars t1 = t_vars t2.
Proof.
  unfold compare_terms.
  destruct (Nat.ltb _ _) eqn:E1; [discriminate|].
  destruct (Nat.ltb (length (t_vars t2)) _) eqn:E2; [discriminate|].
  apply Nat.ltb_ge in E1, E2. apply compare_vps_eq. lia.
Qed.

Lemma ev_terms_cons rho t ts : ev_terms rho (t :: ts) = ev_term rho t + ev_terms rho ts.
Proof. reflexivity. Qed.

Lemma term_sum_nil_r ts : term_sum ts [] = ts.
Proof. destruct ts; reflexivity. Qed.

Lemma term_sum_cons t1 r1 t2 r2 :
  term_sum (t1 :: r1) (t2 :: r2) =
    match compare_terms t1 t2 with
    | Eq => if qz (t_coef t1 + t_coef t2) then term_sum r1 r2
            else Term (t_vars t1) (t_coef t1 + t_coef t2) :: term_sum r1 r2
    | Lt => t1 :: term_sum r1 (t2 :: r2)
    | Gt => t2 :: term_sum (t1 :: r1) r2
    end.
Proof. reflexivity. Qed.

Lemma term_sum_ev rho ts1 : forall ts2,
  ev_terms rho (term_sum ts1 ts2) == ev_terms rho ts1 + ev_terms rho ts2.
Proof.
  induction ts1 as [|t1 r1 IH1].
  - intros [|t2 r2]; simpl; ring.
  - induction ts2 as [|t2 r2 IH2].
    + rewrite term_sum_nil_r. simpl. ring.
    + rewrite term_sum_cons. destruct (compare_terms t1 t2) eqn:E.
      * apply compare_terms_eq in E. destruct (qz (t_coef t1 + t_coef t2)) eqn:Ez.
        -- apply qz_true in Ez. rewrite IH1, !ev_terms_cons. unfold ev_term. rewrite <- E.
           setoid_replace (t_coef t1) with (- t_coef t2) by lra. ring.
        -- rewrite !ev_terms_cons, IH1. unfold ev_term. simpl. rewrite <- E. ring.
      * rewrite !ev_terms_cons, IH1, ev_terms_cons. ring.
      * rewrite !ev_terms_cons, IH2, ev_terms_cons. ring.
Qed.

Lemma e_add_ev rho a b : ev rho (e_add a b) == ev rho a + ev rho b.
Proof. unfold ev, e_add; simpl. rewrite term_sum_ev. ring. Qed.

Lemma e_addS_ev rho a q : ev rho (e_addS a q) == ev rho a + q.
Proof. unfold ev, e_addS; simpl. ring. Qed.

Lemma e_mulS_ev rho a q : ev rho (e_mulS a q) == ev rho a * q.
Proof.
  unfold e_mulS. destruct (qz q) eqn:E.
  - apply qz_true in E. unfold ev; simpl. rewrite E. ring.
  - unfold ev; simpl. induction (e_terms a) as [|t ts IH]; simpl; [ring|].
    unfold ev_term at 1; simpl.
    setoid_replace (ev_terms rho (map (fun t0 => Term (t_vars t0) (t_coef t0 * q)) ts))
      with (ev_terms rho ts * q) by lra.
    unfold ev_term. ring.
Qed.

Lemma vars_prod_cons x1 p1 r1 x2 p2 r2 :
  vars_prod ((x1, p1) :: r1) ((x2, p2) :: r2) =
    if Nat.ltb x1 x2 then (x1, p1) :: vars_prod r1 ((x2, p2) :: r2)
    else if Nat.ltb x2 x1 then (x2, p2) :: vars_prod ((x1, p1) :: r1) r2
    else (x1, (p1 + p2)%nat) :: vars_prod r1 r2.
Proof. reflexivity. Qed.

Lemma ev_vps_cons rho x p vs : ev_vps rho ((x, p) :: vs) = qpow (rho x) p * ev_vps rho vs.
Proof. reflexivity. Qed.

Lemma vars_prod_nil_r v : vars_prod v [] = v.
Proof. destruct v as [|[]]; reflexivity. Qed.

Lemma vars_prod_ev rho v1 : forall v2,
  ev_vps rho (vars_prod v1 v2) == ev_vps rho v1 * ev_vps rho v2.
Proof.
  induction v1 as [|[x1 p1] r1 IH1].
  - intros [|[x2 p2] r2]; simpl; ring.
  - induction v2 as [|[x2 p2] r2 IH2].
    + rewrite vars_prod_nil_r. simpl. ring.
    + rewrite vars_prod_cons. destruct (Nat.ltb x1 x2) eqn:E1; [|destruct (Nat.ltb x2 x1) eqn:E2].
      * rewrite !ev_vps_cons, IH1, ev_vps_cons. ring.
      * rewrite !ev_vps_cons, IH2, ev_vps_cons. ring.
      * apply Nat.ltb_ge in E1, E2. assert (x1 = x2) by lia. subst.
        rewrite !ev_vps_cons, IH1, qpow_add. ring.
Qed.

Lemma expr_prod_ev rho a b : ev rho (expr_prod a b) == ev rho a * ev rho b.
Proof.
  unfold expr_prod. rewrite e_add_ev, e_mulS_ev.
  assert (I : forall t1 ts2 acc,
     ev rho (fold_left (fun acc t2 =>
         e_add acc (Expr [Term (vars_prod (t_vars t1) (t_vars t2)) (t_coef t1 * t_coef t2)] 0))
         ts2 acc) == ev rho acc + ev_term rho t1 * ev_terms rho ts2).
  { intros t1. induction ts2 as [|t2 ts2 IH]; intros acc; simpl; [ring|].
    rewrite IH, e_add_ev. unfold ev at 2; simpl. unfold ev_term; simpl.
    rewrite vars_prod_ev. ring. }
  assert (O : forall ts1 acc,
     ev rho (fold_left (fun acc t1 =>
      let acc := fold_left (fun acc t2 =>
           e_add acc (Expr [Term (vars_prod (t_vars t1) (t_vars t2)) (t_coef t1 * t_coef t2)] 0))
           (e_terms b) acc in
      e_add acc (e_mulS (Expr [t1] 0) (e_const b))) ts1 acc)
     == ev rho acc + ev_terms rho ts1 * ev rho b).
  { induction ts1 as [|t1 ts1 IH]; intros acc; simpl; [ring|].
    rewrite IH. cbv zeta. rewrite e_add_ev, I, e_mulS_ev. unfold ev at 2; simpl.
    unfold ev. ring. }
  rewrite O. unfold ev. simpl. ring.
Qed.

Lemma v_add_ev rho a b : evv rho (v_add a b) == evv rho a + evv rho b.
Proof.
  destruct a, b; simpl; rewrite ?e_addS_ev, ?e_add_ev; ring.
Qed.
Lemma v_mul_ev rho a b : evv rho (v_mul a b) == evv rho a * evv rho b.
Proof.
  destruct a, b; simpl; rewrite ?e_mulS_ev, ?expr_prod_ev; ring.
Qed.
Lemma v_neg_ev rho a : evv rho (v_neg a) == - evv rho a.
Proof. destruct a; simpl; rewrite ?e_mulS_ev; ring. Qed.
Lemma v_sub_ev rho a b : evv rho (v_sub a b) == evv rho a - evv rho b.
Proof. unfold v_sub. rewrite v_add_ev, v_neg_ev. ring. Qed.

Lemma e_pow_ev rho e n : evv rho (e_pow e n) == qpow (ev rho e) n.
Proof.
  induction n as [|n IH]; [reflexivity|].
  cbn [e_pow]. rewrite v_mul_ev, IH, qpow_S. reflexivity.
Qed.
Lemma v_pow_ev rho v n : evv rho (v_pow v n) == qpow (evv rho v) n.
Proof. destruct v; simpl; [reflexivity|apply e_pow_ev]. Qed.

Lemma e_div_ev rho a z b : e_div a z = Some b -> ev rho b == ev rho a / inject_Z z.
Proof.
  unfold e_div. destruct (z =? 1)%Z eqn:E1.
  - apply Z.eqb_eq in E1. intros [= <-]. subst z. unfold inject_Z. field.
  - destruct (z =? 0)%Z eqn:E0; [discriminate|]. apply Z.eqb_neq in E0. intros [= <-].
    assert (Hz : ~ inject_Z z == 0) by (unfold inject_Z, Qeq; simpl; lia).
    unfold ev; simpl. induction (e_terms a) as [|t ts IH]; simpl.
    + field. exact Hz.
    + unfold ev_term at 1; simpl.
      setoid_replace (ev_terms rho (map (fun t0 => Term (t_vars t0) (t_coef t0 / inject_Z z)) ts))
        with (ev_terms rho ts / inject_Z z).
      * unfold ev_term. field. exact Hz.
      * revert IH. unfold Qdiv. intros IH.
        setoid_replace (ev_terms rho ts * / inject_Z z)
          with ((ev_terms rho ts + e_const a) * / inject_Z z - e_const a * / inject_Z z) by ring.
        rewrite <- IH. unfold Qdiv. ring.
Qed.

Lemma var_expr_ev rho x : ev rho (var_expr x) == rho x.
Proof. unfold ev, var_expr; simpl. unfold ev_term; simpl. rewrite qpow_1. ring. Qed.
Lemma var_plus_ev rho x c : ev rho (var_plus x c) == rho x + c.
Proof. unfold ev, var_plus; simpl. unfold ev_term; simpl. rewrite qpow_1. ring. Qed.

(** ** substitution *)

(** the assignment obtained by first substituting *)
Definition rho_subs (rho : nat -> Q) (s : subs) : nat -> Q :=
  fun x => match subs_get x s with Some v => evv rho v | None => rho x end.

Lemma vp_subst_ev rho s x p : evv rho (vp_subst s (x, p)) == qpow (rho_subs rho s x) p.
Proof.
  unfold vp_subst, rho_subs. destruct (subs_get x s) as [v|].
  - destruct (Nat.eqb p 1) eqn:E.
    + apply Nat.eqb_eq in E. subst. rewrite qpow_1. reflexivity.
    + apply v_pow_ev.
  - rewrite e_pow_ev. apply qpow_comp, var_expr_ev.
Qed.

Lemma fold_mul_ev rho vs : forall v,
  evv rho (fold_left v_mul vs v) == evv rho v * fold_right (fun w acc => evv rho w * acc) 1 vs.
Proof.
  induction vs as [|w vs IH]; intros v; simpl; [ring|].
  rewrite IH, v_mul_ev. ring.
Qed.

Definition expr_wf (e : expr) : Prop := Forall (fun t => t_vars t <> []) (e_terms e).
Definition val_wf (v : val) : Prop := match v with VS _ => True | VE e => expr_wf e end.

Lemma term_subst_ev rho s t v :
  term_subst s t = Some v -> evv rho v == ev_term (rho_subs rho s) t.
Proof.
  unfold term_subst. destruct (map (vp_subst s) (t_vars t)) as [|w ws] eqn:E; [discriminate|].
  intros [= <-]. rewrite v_mul_ev, fold_mul_ev. unfold ev_term.
  assert (G : fold_right (fun w acc => evv rho w * acc) 1 (map (vp_subst s) (t_vars t))
              == ev_vps (rho_subs rho s) (t_vars t)).
  { clear. induction (t_vars t) as [|[x p] vs IH]; [reflexivity|].
    cbn [map fold_right]. rewrite IH, vp_subst_ev. reflexivity. }
  rewrite E in G. simpl in G. rewrite G. simpl. ring.
Qed.

Lemma terms_subst_ev rho s ts : forall acc v,
  terms_subst s ts acc = Some v -> evv rho v == evv rho acc + ev_terms (rho_subs rho s) ts.
Proof.
  induction ts as [|t ts IH]; intros acc v; simpl.
  - intros [= <-]. ring.
  - destruct (term_subst s t) as [w|] eqn:E; [|discriminate]. intros H.
    rewrite (IH _ _ H), v_add_ev, (term_subst_ev rho s t w E). ring.
Qed.

Lemma e_subst_ev rho e s v : e_subst e s = Some v -> evv rho v == ev (rho_subs rho s) e.
Proof.
  unfold e_subst. destruct (terms_subst s (e_terms e) (VS 0)) as [w|] eqn:E; [|discriminate].
  intros [= <-]. rewrite v_add_ev, (terms_subst_ev rho s _ _ _ E). unfold ev. simpl. ring.
Qed.

Lemma e_subst_total e s : expr_wf e -> e_subst e s <> None.
Proof.
  intros W. unfold e_subst.
  assert (H : forall ts acc, Forall (fun t => t_vars t <> []) ts -> terms_subst s ts acc <> None).
  { induction ts as [|t ts IH]; simpl; intros acc F; [discriminate|].
    inversion F; subst. unfold term_subst.
    destruct (t_vars t) as [|a b] eqn:Ev; [congruence|]. simpl. apply IH. assumption. }
  specialize (H _ (VS 0) W). destruct (terms_subst _ _ _); [discriminate|congruence].
Qed.

Lemma v_subst_ev rho v s w : v_subst v s = Some w -> evv rho w == evv (rho_subs rho s) v.
Proof.
  destruct v as [q|e]; simpl.
  - intros [= <-]. reflexivity.
  - destruct (e_is_const e) eqn:E.
    + intros [= <-]. simpl. unfold ev, e_is_const in *. destruct (e_terms e); [|discriminate].
      simpl. ring.
    + apply e_subst_ev.
Qed.

(** operations keep every term's variable list non-empty *)
Lemma term_sum_wf a : forall b,
  Forall (fun t => t_vars t <> []) a -> Forall (fun t => t_vars t <> []) b ->
  Forall (fun t => t_vars t <> []) (term_sum a b).
Proof.
  induction a as [|t1 r1 IH1].
  - intros [|t2 r2]; simpl; auto.
  - induction b as [|t2 r2 IH2]; intros H1 H2.
    + now rewrite term_sum_nil_r.
    + rewrite term_sum_cons. inversion H1; inversion H2; subst.
      destruct (compare_terms t1 t2).
      * destruct (qz _); auto.
      * constructor; auto.
      * constructor; auto.
Qed.

Lemma e_add_wf a b : expr_wf a -> expr_wf b -> expr_wf (e_add a b).
Proof. unfold expr_wf, e_add; simpl. apply term_sum_wf. Qed.
Lemma e_addS_wf a q : expr_wf a -> expr_wf (e_addS a q).
Proof. auto. Qed.
Lemma e_mulS_wf a q : expr_wf a -> expr_wf (e_mulS a q).
Proof.
  unfold expr_wf, e_mulS. destruct (qz q); simpl; auto.
  intros H. apply Forall_map. eapply Forall_impl; [|exact H]. simpl. auto.
Qed.
Lemma vars_prod_wf v1 : forall v2, v1 <> [] -> vars_prod v1 v2 <> [].
Proof.
  intros [|[x2 p2] r2] H; [now rewrite vars_prod_nil_r|].
  destruct v1 as [|[x1 p1] r1]; [congruence|]. rewrite vars_prod_cons.
  destruct (Nat.ltb x1 x2); [discriminate|]. destruct (Nat.ltb x2 x1); discriminate.
Qed.
Lemma expr_prod_wf a b : expr_wf a -> expr_wf b -> expr_wf (expr_prod a b).
Proof.
  intros Ha Hb. unfold expr_prod. apply e_add_wf; [|now apply e_mulS_wf].
  assert (I : forall t1 ts2 acc, t_vars t1 <> [] -> expr_wf acc ->
     expr_wf (fold_left (fun acc t2 =>
         e_add acc (Expr [Term (vars_prod (t_vars t1) (t_vars t2)) (t_coef t1 * t_coef t2)] 0))
         ts2 acc)).
  { intros t1. induction ts2 as [|t2 ts2 IH]; intros acc H1 H2; simpl; auto.
    apply IH; auto. apply e_add_wf; auto. constructor; [|constructor]. simpl.
    now apply vars_prod_wf. }
  assert (O : forall ts acc, Forall (fun t => t_vars t <> []) ts -> expr_wf acc ->
     expr_wf (fold_left (fun acc t1 =>
      let acc := fold_left (fun acc t2 =>
           e_add acc (Expr [Term (vars_prod (t_vars t1) (t_vars t2)) (t_coef t1 * t_coef t2)] 0))
           (e_terms b) acc in
      e_add acc (e_mulS (Expr [t1] 0) (e_const b))) ts acc)).
  { induction ts as [|t ts IH]; intros acc F W; simpl; auto. inversion F; subst.
    apply IH; auto. cbv zeta. apply e_add_wf; [now apply I|]. apply e_mulS_wf.
    constructor; auto. }
  apply O; [exact Ha|constructor].
Qed.

(** ** minimum and comparison *)

Lemma qpow_nonneg q n : 0 <= q -> 0 <= qpow q n.
Proof.
  intros H. induction n as [|n IH]; [rewrite qpow_0; lra|].
  rewrite qpow_S. now apply Qmult_le_0_compat.
Qed.

Lemma ev_vps_nonneg rho vs : (forall x, 0 <= rho x) -> 0 <= ev_vps rho vs.
Proof.
  intros H. induction vs as [|[x p] vs IH]; simpl; [lra|].
  apply Qmult_le_0_compat; auto. now apply qpow_nonneg.
Qed.

Lemma ev_terms_nonneg rho ts : (forall x, 0 <= rho x) ->
  existsb (fun t => qlt (t_coef t) 0) ts = false -> 0 <= ev_terms rho ts.
Proof.
  intros H. induction ts as [|t ts IH]; simpl; [lra|].
  rewrite orb_false_iff, qlt_false. intros [H1 H2].
  specialize (IH H2). unfold ev_term.
  assert (0 <= t_coef t * ev_vps rho (t_vars t))
    by (apply Qmult_le_0_compat; auto; now apply ev_vps_nonneg). lra.
Qed.

Lemma v_min_val_lower v q rho :
  (forall x, 0 <= rho x) -> v_min_val v = Some q -> q <= evv rho v.
Proof.
  intros H. destruct v as [p|e]; simpl.
  - intros [= <-]. lra.
  - destruct (existsb _ _) eqn:E; [discriminate|]. intros [= <-].
    pose proof (ev_terms_nonneg rho _ H E). unfold ev. lra.
Qed.

(** terms with variable lists that are non-empty and have positive powers vanish at 0 *)
Definition expr_pos (e : expr) : Prop :=
  Forall (fun t => t_vars t <> [] /\ Forall (fun vp => (0 < snd vp)%nat) (t_vars t)) (e_terms e).
Definition val_pos (v : val) : Prop := match v with VS _ => True | VE e => expr_pos e end.

Lemma ev_zero e : expr_pos e -> ev (fun _ => 0) e == e_const e.
Proof.
  unfold ev, expr_pos. intros H.
  assert (G : ev_terms (fun _ => 0) (e_terms e) == 0).
  { induction H as [|t ts [Hn Hp] _ IH]; simpl; [reflexivity|]. rewrite IH.
    unfold ev_term. destruct (t_vars t) as [|[x p] vs]; [congruence|].
    inversion Hp; subst. simpl in *. destruct p; [lia|]. rewrite qpow_S. ring. }
  rewrite G. ring.
Qed.

Lemma v_min_val_attained v q :
  val_pos v -> v_min_val v = Some q -> evv (fun _ => 0) v == q.
Proof.
  destruct v as [p|e]; simpl.
  - intros _ [= <-]. reflexivity.
  - intros H. destruct (existsb _ _); [discriminate|]. intros [= <-]. now apply ev_zero.
Qed.

Lemma always_ge_sound a b rho :
  (forall x, 0 <= rho x) -> always_ge a b = true -> evv rho b <= evv rho a.
Proof.
  intros H. unfold always_ge. destruct (v_min_val (v_sub a b)) as [q|] eqn:E; [|discriminate].
  intros Hq. apply Qle_bool_iff in Hq. pose proof (v_min_val_lower _ _ rho H E) as L.
  rewrite v_sub_ev in L. lra.
Qed.
Lemma always_gt_sound a b rho :
  (forall x, 0 <= rho x) -> always_gt a b = true -> evv rho b < evv rho a.
Proof.
  intros H. unfold always_gt. destruct (v_min_val (v_sub a b)) as [q|] eqn:E; [|discriminate].
  intros Hq. apply qlt_true in Hq. pose proof (v_min_val_lower _ _ rho H E) as L.
  rewrite v_sub_ev in L. lra.
Qed.

Lemma ev_terms_zero rho ts :
  forallb (fun t => qz (t_coef t)) ts = true -> ev_terms rho ts == 0.
Proof.
  induction ts as [|t ts IH]; simpl; [reflexivity|].
  rewrite andb_true_iff, qz_true. intros [H1 H2]. rewrite (IH H2). unfold ev_term.
  rewrite H1. ring.
Qed.

Lemma e_eqb_sound a b rho : e_eqb a b = true -> ev rho a == evv rho b.
Proof.
  unfold e_eqb. intros H.
  assert (E : evv rho (v_sub (VE a) b) == 0).
  { destruct (v_sub (VE a) b) as [q|d]; simpl.
    - now apply qz_true.
    - apply andb_true_iff in H. destruct H as [H1 H2]. apply qz_true in H1.
      unfold ev. rewrite (ev_terms_zero rho _ H2), H1. ring. }
  rewrite v_sub_ev in E. simpl in E. lra.
Qed.

(** ** every operation keeps [expr_pos] *)
Definition term_pos (t : term) : Prop :=
  t_vars t <> [] /\ Forall (fun vp => (0 < snd vp)%nat) (t_vars t).

Lemma term_sum_pos a : forall b,
  Forall term_pos a -> Forall term_pos b -> Forall term_pos (term_sum a b).
Proof.
  induction a as [|t1 r1 IH1].
  - intros [|t2 r2]; simpl; auto.
  - induction b as [|t2 r2 IH2]; intros H1 H2.
    + now rewrite term_sum_nil_r.
    + rewrite term_sum_cons. inversion H1; inversion H2; subst.
      destruct (compare_terms t1 t2).
      * destruct (qz _); auto.
      * constructor; auto.
      * constructor; auto.
Qed.
Lemma e_add_pos a b : expr_pos a -> expr_pos b -> expr_pos (e_add a b).
Proof. unfold expr_pos, e_add; simpl. apply term_sum_pos. Qed.
Lemma e_mulS_pos a q : expr_pos a -> expr_pos (e_mulS a q).
Proof.
  unfold expr_pos, e_mulS. destruct (qz q); simpl; auto.
  intros H. apply Forall_map. eapply Forall_impl; [|exact H]. simpl. auto.
Qed.
Lemma vars_prod_pos v1 : forall v2,
  Forall (fun vp : var_power => (0 < snd vp)%nat) v1 ->
  Forall (fun vp : var_power => (0 < snd vp)%nat) v2 ->
  Forall (fun vp : var_power => (0 < snd vp)%nat) (vars_prod v1 v2).
Proof.
  induction v1 as [|[x1 p1] r1 IH1].
  - intros [|[x2 p2] r2]; simpl; auto.
  - induction v2 as [|[x2 p2] r2 IH2]; intros H1 H2.
    + now rewrite vars_prod_nil_r.
    + rewrite vars_prod_cons. inversion H1; inversion H2; subst; simpl in *.
      destruct (Nat.ltb x1 x2); [constructor; auto|].
      destruct (Nat.ltb x2 x1); constructor; simpl; auto; lia.
Qed.
Lemma expr_prod_pos a b : expr_pos a -> expr_pos b -> expr_pos (expr_prod a b).
Proof.
  intros Ha Hb. unfold expr_prod. apply e_add_pos; [|now apply e_mulS_pos].
  assert (I : forall t1 ts2 acc, term_pos t1 -> Forall term_pos ts2 -> expr_pos acc ->
     expr_pos (fold_left (fun acc t2 =>
         e_add acc (Expr [Term (vars_prod (t_vars t1) (t_vars t2)) (t_coef t1 * t_coef t2)] 0))
         ts2 acc)).
  { intros t1. induction ts2 as [|t2 ts2 IH]; intros acc H1 H2 H3; simpl; auto.
    inversion H2; subst.
    apply IH; auto. apply e_add_pos; auto. constructor; [|constructor]. simpl.
    destruct H1, H4. split; [now apply vars_prod_wf|now apply vars_prod_pos]. }
  assert (O : forall ts acc, Forall term_pos ts -> expr_pos acc ->
     expr_pos (fold_left (fun acc t1 =>
      let acc := fold_left (fun acc t2 =>
           e_add acc (Expr [Term (vars_prod (t_vars t1) (t_vars t2)) (t_coef t1 * t_coef t2)] 0))
           (e_terms b) acc in
      e_add acc (e_mulS (Expr [t1] 0) (e_const b))) ts acc)).
  { induction ts as [|t ts IH]; intros acc F W; simpl; auto. inversion F; subst.
    apply IH; auto. cbv zeta. apply e_add_pos; [now apply I|]. apply e_mulS_pos.
    constructor; auto. }
  apply O; [exact Ha|constructor].
Qed.
Lemma v_add_pos a b : val_pos a -> val_pos b -> val_pos (v_add a b).
Proof. destruct a, b; simpl; auto using e_add_pos. Qed.
Lemma v_mul_pos a b : val_pos a -> val_pos b -> val_pos (v_mul a b).
Proof. destruct a, b; simpl; auto using e_mulS_pos, expr_prod_pos. Qed.
Lemma v_neg_pos a : val_pos a -> val_pos (v_neg a).
Proof. destruct a; simpl; auto using e_mulS_pos. Qed.
Lemma v_sub_pos a b : val_pos a -> val_pos b -> val_pos (v_sub a b).
Proof. intros. apply v_add_pos; auto using v_neg_pos. Qed.
Lemma var_expr_pos x : expr_pos (var_expr x).
Proof. repeat constructor. simpl. discriminate. Qed.
Lemma e_pow_pos e n : expr_pos e -> val_pos (e_pow e n).
Proof.
  intros H. induction n; [exact I|]. cbn [e_pow]. apply v_mul_pos; auto.
Qed.
Lemma v_pow_pos v n : val_pos v -> val_pos (v_pow v n).
Proof. destruct v; simpl; auto using e_pow_pos. Qed.
Lemma e_div_pos a z b : e_div a z = Some b -> expr_pos a -> expr_pos b.
Proof.
  unfold e_div. destruct (z =? 1)%Z; [intros [= <-]; auto|].
  destruct (z =? 0)%Z; [discriminate|]. intros [= <-] H. unfold expr_pos in *; simpl.
  apply Forall_map. eapply Forall_impl; [|exact H]. simpl. auto.
Qed.
Definition subs_pos (s : subs) : Prop := Forall (fun xv => val_pos (snd xv)) s.
Lemma subs_get_pos s x v : subs_pos s -> subs_get x s = Some v -> val_pos v.
Proof.
  induction 1 as [|[y w] s H _ IH]; simpl; [discriminate|].
  destruct (Nat.eqb x y); auto. intros [= <-]. exact H.
Qed.
Lemma vp_subst_pos s vp : subs_pos s -> val_pos (vp_subst s vp).
Proof.
  intros H. destruct vp as [x p]. unfold vp_subst. destruct (subs_get x s) eqn:E.
  - apply subs_get_pos in E; auto. destruct (Nat.eqb p 1); auto using v_pow_pos.
  - apply e_pow_pos, var_expr_pos.
Qed.
Lemma fold_mul_pos vs : forall v, val_pos v -> Forall val_pos vs -> val_pos (fold_left v_mul vs v).
Proof.
  induction vs as [|w vs IH]; intros v H F; simpl; auto. inversion F; subst.
  apply IH; auto using v_mul_pos.
Qed.
Lemma term_subst_pos s t v : subs_pos s -> term_subst s t = Some v -> val_pos v.
Proof.
  intros H. unfold term_subst.
  assert (F : Forall val_pos (map (vp_subst s) (t_vars t))).
  { apply Forall_map, Forall_forall. intros. now apply vp_subst_pos. }
  destruct (map (vp_subst s) (t_vars t)); [discriminate|]. intros [= <-].
  inversion F; subst. apply v_mul_pos; [|exact I]. now apply fold_mul_pos.
Qed.
Lemma terms_subst_pos s ts : forall acc v, subs_pos s -> val_pos acc ->
  terms_subst s ts acc = Some v -> val_pos v.
Proof.
  induction ts as [|t ts IH]; intros acc v Hs Ha; simpl.
  - intros [= <-]. exact Ha.
  - destruct (term_subst s t) as [w|] eqn:E; [|discriminate]. apply IH; auto.
    apply v_add_pos; auto. eapply term_subst_pos; eauto.
Qed.
Lemma v_subst_pos v s w : subs_pos s -> val_pos v -> v_subst v s = Some w -> val_pos w.
Proof.
  intros Hs. destruct v as [q|e]; simpl.
  - intros _ [= <-]. exact I.
  - intros He. destruct (e_is_const e); [intros [= <-]; exact I|]. unfold e_subst.
    destruct (terms_subst _ _ _) as [u|] eqn:E; [|discriminate]. intros [= <-].
    apply v_add_pos; [|exact I]. eapply terms_subst_pos; eauto. exact I.
Qed.
Lemma v_subst_total v s : val_pos v -> v_subst v s <> None.
Proof.
  destruct v as [q|e]; simpl; [discriminate|]. intros H.
  destruct (e_is_const e); [discriminate|]. apply e_subst_total.
  eapply Forall_impl; [|exact H]. simpl. tauto.
Qed.

(** agreement with int [substitute] when everything is substituted by a number *)
Lemma terms_subst_const s : forall ts acc,
  (forall t, In t ts -> forall x p, In (x, p) (t_vars t) -> exists q, subs_get x s = Some (VS q)) ->
  forall w, terms_subst s ts (VS acc) = Some w -> exists q, w = VS q.
Proof.
  induction ts as [|t ts IH]; intros acc H w; simpl.
  - intros [= <-]. eauto.
  - destruct (term_subst s t) as [v|] eqn:E; [|discriminate].
    assert (exists q, v = VS q) as [q ->].
    { unfold term_subst in E. destruct (t_vars t) as [|[x p] vs] eqn:Ev; [discriminate|].
      assert (Hs : forall vp, In vp (t_vars t) -> exists q, vp_subst s vp = VS q).
      { intros [y r] Hi. destruct (H t (or_introl eq_refl) y r Hi) as (q & Eq).
        unfold vp_subst. rewrite Eq. destruct (Nat.eqb r 1); simpl; eauto. }
      cbn [map] in E.
      assert (Ev' : v = v_mul (fold_left v_mul (map (vp_subst s) vs) (vp_subst s (x, p)))
                              (VS (t_coef t))) by congruence.
      rewrite Ev'. clear E Ev'.
      rewrite Ev in Hs. destruct (Hs (x, p) (or_introl eq_refl)) as (q & ->).
      assert (F : forall l, (forall vp, In vp l -> exists q, vp_subst s vp = VS q) ->
                  forall a, exists b, fold_left v_mul (map (vp_subst s) l) (VS a) = VS b).
      { induction l as [|u l IHl]; intros Hl a; simpl; [eauto|].
        destruct (Hl u (or_introl eq_refl)) as (b & ->). simpl.
        apply IHl. intros. apply Hl. now right. }
      destruct (F vs (fun vp Hi => Hs vp (or_intror Hi)) q) as (b & ->). simpl. eauto. }
    simpl. apply IH. intros t' Ht. apply H. now right.
Qed.
