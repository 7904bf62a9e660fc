(** * Values inside the proofs of the recursive prover *)
Require Import ZArith List Lia Bool Arith QArith Qround Lqa.
From Verif Require Import M_Expr P_Expr M_Tape M_Simulator M_Prover M_ProverRec P_Lin P_GenSim P_Form P_Rule P_Series.
Import ListNotations.
Open Scope Z_scope.

(** ** polynomials with integer coefficients and bounded degree *)
Lemma is_int_Z z : is_int (inject_Z z).
Proof. exists z. reflexivity. Qed.
Lemma is_int_add a b : is_int a -> is_int b -> is_int (a + b).
Proof. intros [x X] [y Y]. exists (x + y). now rewrite X, Y, <- injZ_add. Qed.
Lemma is_int_mul a b : is_int a -> is_int b -> is_int (a * b).
Proof. intros [x X] [y Y]. exists (x * y). now rewrite X, Y, <- injZ_mul. Qed.
Lemma is_int_opp a : is_int a -> is_int (- a).
Proof. intros [x X]. exists (- x). now rewrite X, <- injZ_opp. Qed.
Lemma is_int_pow a n : is_int a -> is_int (qpow a n).
Proof.
  intros H. induction n as [|n IH]; [exists 1; now rewrite qpow_0|].
  destruct (is_int_mul _ _ IH H) as [z Hz]. exists z. now rewrite qpow_S.
Qed.

(** the power of [k] in a product *)
Definition kdeg (k : nat) (vs : list var_power) : nat :=
  fold_right (fun vp n => ((if Nat.eqb (fst vp) k then snd vp else 0) + n)%nat) 0%nat vs.
(** all the powers *)
Definition tdeg (vs : list var_power) : nat := fold_right (fun vp n => (snd vp + n)%nat) 0%nat vs.

Definition kterm (k n : nat) (t : term) : Prop :=
  vsrt (t_vars t) /\ is_int (t_coef t) /\ (kdeg k (t_vars t) <= n)%nat.
Definition kexpr (k n : nat) (e : expr) : Prop := is_int (e_const e) /\ Forall (kterm k n) (e_terms e).
Definition kpoly (k n : nat) (v : val) : Prop :=
  match v with VS q => is_int q | VE e => kexpr k n e end.

Lemma kterm_mono k n n' t : (n <= n')%nat -> kterm k n t -> kterm k n' t.
Proof. intros H (A & B & C). repeat split; auto. lia. Qed.
Lemma kexpr_mono k n n' e : (n <= n')%nat -> kexpr k n e -> kexpr k n' e.
Proof. intros H [A B]. split; auto. eapply Forall_impl; [|exact B]. intros t. now apply kterm_mono. Qed.
Lemma kpoly_mono k n n' v : (n <= n')%nat -> kpoly k n v -> kpoly k n' v.
Proof. destruct v; simpl; auto. apply kexpr_mono. Qed.

Lemma kdeg_cons k x p vs : kdeg k ((x, p) :: vs) = ((if Nat.eqb x k then p else 0) + kdeg k vs)%nat.
Proof. reflexivity. Qed.
Lemma kdeg_prod k v1 : forall v2, kdeg k (vars_prod v1 v2) = (kdeg k v1 + kdeg k v2)%nat.
Proof.
  induction v1 as [|[x1 p1] r1 IH1].
  - intros [|[x2 p2] r2]; reflexivity.
  - induction v2 as [|[x2 p2] r2 IH2].
    + rewrite vars_prod_nil_r. simpl. lia.
    + rewrite vars_prod_cons. destruct (Nat.ltb_spec x1 x2).
      * rewrite kdeg_cons, IH1, !kdeg_cons. lia.
      * destruct (Nat.ltb_spec x2 x1).
        -- rewrite kdeg_cons. etransitivity; [apply f_equal; exact IH2|]. rewrite !kdeg_cons. lia.
        -- assert (x1 = x2) by lia. subst. rewrite kdeg_cons, IH1, !kdeg_cons. destruct (Nat.eqb x2 k); lia.
Qed.

Lemma term_sum_k k n a : forall b, Forall (kterm k n) a -> Forall (kterm k n) b -> Forall (kterm k n) (term_sum a b).
Proof.
  induction a as [|t1 r1 IH1].
  - intros [|t2 r2]; simpl; auto.
  - induction b as [|t2 r2 IH2]; intros H1 H2.
    + now rewrite term_sum_nil_r.
    + rewrite term_sum_cons. inversion H1 as [|? ? A1 B1]; inversion H2 as [|? ? A2 B2]; subst.
      destruct (compare_terms t1 t2).
      * destruct (qz _); auto. constructor; auto. destruct A1 as (X & Y & Z), A2 as (X' & Y' & Z').
        repeat split; simpl; auto using is_int_add.
      * constructor; auto.
      * constructor; auto.
Qed.
Lemma e_add_k k n a b : kexpr k n a -> kexpr k n b -> kexpr k n (e_add a b).
Proof. intros [A B] [C D]. split; simpl; auto using is_int_add, term_sum_k. Qed.
Lemma e_mulS_k k n a q : is_int q -> kexpr k n a -> kexpr k n (e_mulS a q).
Proof.
  intros Hq [A B]. unfold e_mulS. destruct (qz q); [split; [apply (is_int_Z 0)|constructor]|].
  split; simpl; auto using is_int_mul. apply Forall_map. eapply Forall_impl; [|exact B].
  intros t (X & Y & Z). repeat split; simpl; auto using is_int_mul.
Qed.
Lemma expr_prod_k k n m a b : kexpr k n a -> kexpr k m b -> kexpr k (n + m) (expr_prod a b).
Proof.
  intros Ha Hb. unfold expr_prod. apply e_add_k.
  2:{ apply e_mulS_k; [apply Ha|]. eapply kexpr_mono; [|exact Hb]. lia. }
  assert (I : forall t1 ts2 acc, kterm k n t1 -> Forall (kterm k m) ts2 -> kexpr k (n + m) acc ->
     kexpr k (n + m) (fold_left (fun acc t2 =>
         e_add acc (Expr [Term (vars_prod (t_vars t1) (t_vars t2)) (t_coef t1 * t_coef t2)] 0))
         ts2 acc)).
  { intros t1. induction ts2 as [|t2 ts2 IH]; intros acc H1 H2 H3; simpl; auto.
    inversion H2 as [|? ? (X' & Y' & Z') H4]; subst. destruct H1 as (X & Y & Z).
    apply IH; auto; [repeat split; auto|]. apply e_add_k; auto. split; [apply (is_int_Z 0)|].
    constructor; [|constructor]. repeat split; simpl; auto using is_int_mul, vars_prod_srt.
    rewrite kdeg_prod. lia. }
  assert (G : forall ts acc, Forall (kterm k n) ts -> kexpr k (n + m) acc ->
     kexpr k (n + m) (fold_left (fun acc t1 =>
      let acc := fold_left (fun acc t2 =>
           e_add acc (Expr [Term (vars_prod (t_vars t1) (t_vars t2)) (t_coef t1 * t_coef t2)] 0))
           (e_terms b) acc in
      e_add acc (e_mulS (Expr [t1] 0) (e_const b))) ts acc)).
  { induction ts as [|t ts IH]; intros acc F W; simpl; auto. inversion F; subst.
    apply IH; auto. cbv zeta. apply e_add_k; [apply I; auto; apply Hb|]. apply e_mulS_k; [apply Hb|].
    split; [apply (is_int_Z 0)|]. constructor; auto. eapply kterm_mono; [|eassumption]. lia. }
  apply G; [apply Ha|]. split; [apply (is_int_Z 0)|constructor].
Qed.
Lemma v_add_k k n a b : kpoly k n a -> kpoly k n b -> kpoly k n (v_add a b).
Proof.
  destruct a, b; simpl; auto using is_int_add, e_add_k.
  - intros A [B C]. split; simpl; auto using is_int_add.
  - intros [A B] C. split; simpl; auto using is_int_add.
Qed.
Lemma v_mul_k k n m a b : kpoly k n a -> kpoly k m b -> kpoly k (n + m) (v_mul a b).
Proof.
  destruct a, b; simpl; auto using is_int_mul, expr_prod_k.
  - intros A B. apply e_mulS_k; auto. eapply kexpr_mono; [|exact B]. lia.
  - intros A B. apply e_mulS_k; auto. eapply kexpr_mono; [|exact A]. lia.
Qed.
Lemma e_pow_k k n e p : kexpr k n e -> kpoly k (p * n) (e_pow e p).
Proof.
  intros H. induction p as [|p IH]; [apply (is_int_Z 1)|]. cbn [e_pow].
  replace (S p * n)%nat with (p * n + n)%nat by lia. now apply v_mul_k.
Qed.
Lemma v_pow_k k n v p : kpoly k n v -> kpoly k (p * n) (v_pow v p).
Proof. destruct v; simpl; [apply (is_int_pow q p)|apply e_pow_k]. Qed.
Lemma var_expr_k k x : kexpr k 1 (var_expr x).
Proof.
  split; [apply (is_int_Z 0)|]. constructor; [|constructor]. split; [repeat constructor|]. split; [apply (is_int_Z 1)|].
  simpl. destruct (Nat.eqb x k); lia.
Qed.
Lemma lv_k k v : lv v -> kpoly k 1 v.
Proof.
  destruct v as [q|e]; simpl.
  - intros (z & ->). apply is_int_Z.
  - intros [A (z & B)]. split; [rewrite B; apply is_int_Z|]. eapply Forall_impl; [|exact A].
    intros t (x & y & ->). split; [repeat constructor|]. split; [apply is_int_Z|]. simpl. destruct (Nat.eqb x k); lia.
Qed.

(** every term has at most degree [n] and an integer coefficient *)
Definition iterm (n : nat) (t : term) : Prop :=
  vsrt (t_vars t) /\ is_int (t_coef t) /\ (tdeg (t_vars t) <= n)%nat.
Definition ipoly (n : nat) (v : val) : Prop :=
  match v with VS q => is_int q | VE e => is_int (e_const e) /\ Forall (iterm n) (e_terms e) end.

Lemma lv_i v : lv v -> ipoly 1 v.
Proof.
  destruct v as [q|e]; simpl.
  - intros (z & ->). apply is_int_Z.
  - intros [A (z & B)]. split; [rewrite B; apply is_int_Z|]. eapply Forall_impl; [|exact A].
    intros t (x & y & ->). split; [repeat constructor|]. split; [apply is_int_Z|]. simpl. lia.
Qed.
Lemma ipoly_mono n n' v : (n <= n')%nat -> ipoly n v -> ipoly n' v.
Proof.
  destruct v; simpl; auto. intros H [A B]. split; auto. eapply Forall_impl; [|exact B].
  intros t (X & Y & Z). repeat split; auto. lia.
Qed.

Lemma vp_subst_k k s x p : Forall (fun xv => kpoly k 1 (snd xv)) s -> kpoly k p (vp_subst s (x, p)).
Proof.
  intros Hs. unfold vp_subst.
  assert (G : forall v, kpoly k 1 v -> kpoly k p (if Nat.eqb p 1 then v else v_pow v p)).
  { intros v Hv. destruct (Nat.eqb_spec p 1) as [->|]; auto. replace p with (p * 1)%nat at 1 by lia. now apply v_pow_k. }
  destruct (subs_get x s) as [u|] eqn:E.
  - apply G. clear -Hs E. induction Hs as [|[y w] s H F IH]; simpl in *; [discriminate|].
    destruct (Nat.eqb x y); [now injection E as <-|auto].
  - replace p with (p * 1)%nat at 1 by lia. apply e_pow_k, var_expr_k.
Qed.
Lemma fold_mul_k k s vs : Forall (fun xv => kpoly k 1 (snd xv)) s -> forall v n, kpoly k n v ->
  kpoly k (n + tdeg vs) (fold_left v_mul (map (vp_subst s) vs) v).
Proof.
  intros Hs. induction vs as [|[x p] vs IH]; intros v n Hv; simpl; [eapply kpoly_mono; [|exact Hv]; lia|].
  replace (n + (p + tdeg vs))%nat with (n + p + tdeg vs)%nat by lia. apply IH. apply v_mul_k; auto.
  change (kpoly k p (vp_subst s (x, p))). now apply vp_subst_k.
Qed.
Lemma v_subst_k k n v s w : Forall (fun xv => kpoly k 1 (snd xv)) s -> ipoly n v -> v_subst v s = Some w -> kpoly k n w.
Proof.
  intros Hs. destruct v as [q|e]; simpl; [intros A [= <-]; exact A|]. intros [Hc Ht].
  destruct (e_is_const e); [intros [= <-]; exact Hc|]. unfold e_subst.
  assert (G : forall ts acc v, Forall (iterm n) ts -> kpoly k n acc -> terms_subst s ts acc = Some v -> kpoly k n v).
  { induction ts as [|t ts IH]; intros acc v Hts Ha; simpl; [intros [= <-]; auto|].
    inversion Hts as [|? ? (X & Y & Z) Hts']; subst.
    destruct (term_subst s t) as [u|] eqn:Eu; [|discriminate]. apply IH; auto. apply v_add_k; auto.
    unfold term_subst in Eu. destruct (t_vars t) as [|[x p] vs] eqn:Ev; [discriminate|].
    cbn [map] in Eu. apply (f_equal (fun o => match o with Some a => a | None => VS 0%Q end)) in Eu. cbv beta iota in Eu. subst u.
    replace n with (n + 0)%nat by lia. apply v_mul_k; [|exact Y]. eapply kpoly_mono; [|apply fold_mul_k; [exact Hs|now apply vp_subst_k]].
    simpl in Z. fold (tdeg vs) in Z. lia. }
  destruct (terms_subst s (e_terms e) (VS 0)) as [v|] eqn:E; [|discriminate]. intros [= <-].
  apply (v_add_k k n v (VS (e_const e))); [|exact Hc]. eapply G; [exact Ht| |exact E]. apply (is_int_Z 0).
Qed.

Lemma kdeg_factor t k : vsrt (t_vars t) -> fst (factor_var t k) = kdeg k (t_vars t).
Proof.
  unfold factor_var. cbn [fst]. intros H.
  assert (G : forall (vs : list var_power) p, Forall (fun vp => fst vp <> k) vs ->
     fold_left (fun p vp => if Nat.eqb (fst vp) k then snd vp else p) vs p = p /\ kdeg k vs = 0%nat).
  { induction vs as [|[x p] vs IH]; intros p0 F; simpl; auto. inversion F as [|? ? Hx F']; subst. simpl in Hx.
    apply Nat.eqb_neq in Hx. rewrite Hx. now apply IH. }
  induction (t_vars t) as [|[x p] vs IH]; [reflexivity|]. destruct H as [F H]. simpl.
  destruct (Nat.eqb_spec x k) as [->|Hx].
  - destruct (G vs p) as [A B]; [eapply Forall_impl; [|exact F]; simpl; intros; lia|].
    change (fold_left (fun p vp => if Nat.eqb (fst vp) k then snd vp else p) vs p = (p + kdeg k vs)%nat).
    rewrite A, B. lia.
  - apply IH. exact H.
Qed.
Lemma kterm_sum k N t : kterm k 2 t -> sum_term_ok k N t.
Proof.
  intros (A & B & C). split; [exact A|]. split; [|now left]. left. now rewrite kdeg_factor.
Qed.

(** ** [series_sum] keeps the variables of a term distinct *)
Lemma filter_srt (f : var_power -> bool) vs : vsrt vs -> vsrt (filter f vs).
Proof.
  induction vs as [|[x p] vs IH]; intros H; [exact I|]. destruct H as [F H]. cbn [filter].
  destruct (f (x, p)); auto. split; auto. apply Forall_forall. intros vp Hv. apply filter_In in Hv.
  rewrite Forall_forall in F. now apply F.
Qed.
Lemma v_floordiv_srt v z w : v_floordiv v z = Some w -> val_srt v -> val_srt w.
Proof.
  destruct v as [q|e]; cbn [v_floordiv].
  - intros E _. apply (f_equal (fun o => match o with Some a => a | None => VS 0%Q end)) in E. subst w. exact I.
  - destruct (e_div e z) as [f|] eqn:E; simpl; [|discriminate]. intros [= <-]. apply (e_div_srt _ _ _ E).
Qed.
Lemma series_sum_srt v k N w : val_srt v -> val_srt N -> series_sum v k N = Some w -> val_srt w.
Proof.
  intros Hv HN. destruct v as [q|e]; cbn [series_sum].
  - destruct (q_int q); [|discriminate]. intros E. apply (f_equal (fun o => match o with Some a => a | None => VS 0%Q end)) in E.
    subst w. now apply v_mul_srt.
  - assert (T : forall t w, vsrt (t_vars t) -> series_term t k N = Some w -> val_srt w).
    { intros t u Ht. unfold series_term. destruct (factor_var t k) as [p rest] eqn:Ef.
      assert (Hr : val_srt rest).
      { unfold factor_var in Ef. injection Ef as _ <-.
        match goal with |- context [match ?l with [] => _ | _ => _ end] => destruct l as [|vp rs] eqn:Efl end; [exact I|].
        constructor; [|constructor]. cbn [t_vars]. rewrite <- Efl. now apply filter_srt. }
      assert (H1 : val_srt (v_mul (v_mul rest N) (v_sub N (VS 1%Q)))) by (apply v_mul_srt; [now apply v_mul_srt|now apply v_sub_srt]).
      destruct p as [|[|[|[|p]]]]; try discriminate.
      - intros E. apply (f_equal (fun o => match o with Some a => a | None => VS 0%Q end)) in E. subst u. now apply v_mul_srt.
      - intros E. eapply v_floordiv_srt; eauto.
      - intros E. eapply v_floordiv_srt; eauto. apply v_mul_srt; auto. apply v_sub_srt; [apply v_mul_srt|]; auto; exact I.
      - destruct (v_floordiv _ 2) as [x|] eqn:E; cbn [option_map]; [|discriminate]. intros E'.
        apply (f_equal (fun o => match o with Some a => a | None => VS 0%Q end)) in E'. subst u. apply v_pow_srt.
        eapply v_floordiv_srt; eauto. }
    assert (G : forall ts acc w, Forall (fun t => vsrt (t_vars t)) ts -> val_srt acc -> series_terms ts k N acc = Some w -> val_srt w).
    { induction ts as [|t ts IH]; intros acc u Hts Ha; cbn [series_terms].
      - intros E. apply (f_equal (fun o => match o with Some a => a | None => VS 0%Q end)) in E. now subst u.
      - inversion Hts; subst. destruct (series_term t k N) as [x|] eqn:E; [|discriminate]. apply IH; auto.
        apply v_add_srt; eauto. }
    apply G; [exact Hv|]. apply v_mul_srt; auto. exact I.
Qed.

(** ** values at assignments of natural numbers *)
Definition NN (sg : nat -> Z) : Prop := forall x, 0 <= sg x.

(** a count: linear, over the variables [W] *)
Definition cv (W : list nat) (v : val) : Prop := lv v /\ incl (v_variables v) W.
(** a number of steps: an integer that depends on the variables [W] only *)
Definition gv (W : list nat) (v : val) : Prop :=
  val_srt v /\ (forall sg, NN sg -> iat sg v) /\
  forall sg sg', NN sg -> NN sg' -> (forall x, In x W -> sg x = sg' x) -> (evv (rho sg) v == evv (rho sg') v)%Q.

Lemma lv_srt v : lv v -> val_srt v.
Proof.
  destruct v as [q|e]; simpl; auto. intros [A _]. eapply Forall_impl; [|exact A]. intros t (x & y & ->). repeat constructor.
Qed.
Lemma cv_gv W v : cv W v -> gv W v.
Proof.
  intros [H1 H2]. split; [now apply lv_srt|]. split; [intros; now apply lv_iat|].
  intros sg sg' _ _ H. apply evv_ext. intros x Hx. unfold rho. rewrite H; auto. reflexivity.
Qed.
Lemma cv_VS W z : cv W (VS (inject_Z z)).
Proof. split; [apply VS_lin|intros x []]. Qed.
Lemma cv_add W a b : cv W a -> cv W b -> cv W (v_add a b).
Proof. intros [A B] [C D]. split; [now apply v_add_lin|]. intros x Hx. apply v_add_vars in Hx. destruct Hx; auto. Qed.
Lemma cv_sub W a b : cv W a -> cv W b -> cv W (v_sub a b).
Proof. intros [A B] [C D]. split; [now apply v_sub_lin|]. intros x Hx. apply v_sub_vars in Hx. destruct Hx; auto. Qed.
Lemma cv_mul W z a : cv W a -> cv W (v_mul (VS (inject_Z z)) a).
Proof. intros [A B]. split; [now apply v_mul_lin|]. intros x Hx. apply v_mul_vars in Hx. auto. Qed.
Lemma cv_mul_r W z a : cv W a -> cv W (v_mul a (VS (inject_Z z))).
Proof. intros [A B]. split; [now apply v_mul_lin_r|]. intros x Hx. apply v_mul_vars_r in Hx. auto. Qed.
Lemma cv_mono W W' v : incl W W' -> cv W v -> cv W' v.
Proof. intros H [A B]. split; auto. eapply incl_tran; eauto. Qed.

Lemma gv_add W a b : gv W a -> gv W b -> gv W (v_add a b).
Proof.
  intros (A & B & C) (A' & B' & C'). split; [now apply v_add_srt|]. split; [intros; apply iat_add; auto|].
  intros. rewrite !v_add_ev. rewrite (C sg sg'), (C' sg sg') by auto. reflexivity.
Qed.
Lemma gv_sub W a b : gv W a -> gv W b -> gv W (v_sub a b).
Proof.
  intros (A & B & C) (A' & B' & C'). split; [now apply v_sub_srt|]. split; [intros; apply iat_sub; auto|].
  intros. rewrite !v_sub_ev. rewrite (C sg sg'), (C' sg sg') by auto. reflexivity.
Qed.
Lemma gv_VS W z : gv W (VS (inject_Z z)).
Proof. apply cv_gv, cv_VS. Qed.
Lemma gv_mono W W' v : incl W W' -> gv W v -> gv W' v.
Proof. intros H (A & B & C). repeat split; auto. Qed.
Lemma gv_iat W v sg : gv W v -> NN sg -> iat sg v.
Proof. intros (_ & H & _). auto. Qed.
Lemma gv_dep W v sg sg' : gv W v -> NN sg -> NN sg' -> (forall x, In x W -> sg x = sg' x) -> zev sg v = zev sg' v.
Proof. intros (_ & _ & H) A B C. unfold zev. now rewrite (H sg sg'). Qed.

(** substitution *)
Lemma subst_ssub sg v s w : Forall (fun xu => iat sg (snd xu)) s -> v_subst v s = Some w ->
  (evv (rho sg) w == evv (rho (ssub sg s)) v)%Q.
Proof.
  intros Hs E. rewrite (v_subst_ev _ _ _ _ E). apply evv_ext. intros x _. unfold rho_subs, ssub.
  destruct (subs_get x s) as [u|] eqn:Eg.
  - unfold rho at 2. rewrite Eg. apply iat_spec. apply (Forall_forall (fun xu => iat sg (snd xu)) s) with (x := (x, u)) in Hs; auto.
    clear -Eg. induction s as [|[y u'] s IH]; simpl in *; [discriminate|].
    destruct (Nat.eqb_spec x y) as [->|]; [injection Eg as ->; auto|auto].
  - unfold rho at 2. rewrite Eg. reflexivity.
Qed.
Lemma subst_zev sg W v s w : gv W v -> Forall (fun xu => iat sg (snd xu)) s -> NN (ssub sg s) -> v_subst v s = Some w ->
  iat sg w /\ zev sg w = zev (ssub sg s) v.
Proof.
  intros (_ & Hi & _) Hs Hn E. pose proof (subst_ssub sg v s w Hs E) as H. destruct (Hi _ Hn) as [z Hz]. split.
  - exists z. now rewrite H.
  - unfold zev. now rewrite H.
Qed.

(** sums *)
Lemma qsum_ext_lt n f g : (forall i, (i < n)%nat -> (f i == g i)%Q) -> (qsum n f == qsum n g)%Q.
Proof. induction n as [|n IH]; intros H; simpl; [reflexivity|]. rewrite IH by auto. now rewrite H by auto. Qed.
Lemma qsum_Z n f : (qsum n (fun i => inject_Z (f i)) == inject_Z (series n f))%Q.
Proof. induction n as [|n IH]; simpl; [reflexivity|]. rewrite IH. now rewrite injZ_add. Qed.
Definition setk (sg : nat -> Z) (k : nat) (i : nat) : nat -> Z := fun x => if Nat.eqb x k then Z.of_nat i else sg x.
Lemma setk_rho sg k i v : (evv (rho (setk sg k i)) v == evv (upd (rho sg) k (qn i)) v)%Q.
Proof. apply evv_ext. intros x _. unfold rho, setk, upd, qn. destruct (Nat.eqb x k); reflexivity. Qed.

Lemma series_sum_Z sg this k N n total f : kpoly k 2 this -> zev sg N = Z.of_nat n -> iat sg N ->
  (forall i, (i < n)%nat -> (evv (rho (setk sg k i)) this == inject_Z (f i))%Q) ->
  series_sum this k N = Some total -> (evv (rho sg) total == inject_Z (series n f))%Q.
Proof.
  intros Hk HN HNi Hf E. rewrite <- qsum_Z.
  assert (HN' : (evv (rho sg) N == qn n)%Q) by (rewrite (iat_spec _ _ HNi), HN; reflexivity).
  transitivity (qsum n (fun i => evv (upd (rho sg) k (qn i)) this)).
  - destruct this as [q|e].
    + cbn [series_sum] in E. destruct (q_int q); [|discriminate].
      apply (f_equal (fun o => match o with Some a => a | None => VS 0%Q end)) in E. cbv beta iota in E. subst total.
      rewrite v_mul_ev, HN'. cbn [evv]. rewrite qsum_const. reflexivity.
    + destruct (series_sum_ev (rho sg) k N n e HN') as (w & Ew & Hw).
      * destruct Hk as [_ Hk]. eapply Forall_impl; [|exact Hk]. intros t. apply kterm_sum.
      * rewrite Ew in E. apply (f_equal (fun o => match o with Some a => a | None => VS 0%Q end)) in E. cbv beta iota in E. subst total. exact Hw.
  - apply qsum_ext_lt. intros i Hi. rewrite <- setk_rho. now apply Hf.
Qed.

(** [v_simp] *)
Lemma v_simp_ev r v : (evv r (v_simp v) == evv r v)%Q.
Proof.
  destruct v as [q|e]; simpl; [reflexivity|]. destruct (e_is_const e) eqn:E; [|reflexivity].
  unfold e_is_const in E. destruct e as [[|t ts] c]; [|discriminate]. unfold ev. simpl. ring.
Qed.
Lemma v_simp_cv W v : cv W v -> cv W (v_simp v).
Proof.
  intros H. destruct v as [q|e]; auto. simpl. destruct (e_is_const e); auto.
  destruct H as [[_ (z & ->)] _]. apply cv_VS.
Qed.
Lemma v_simp_zev sg v : zev sg (v_simp v) = zev sg v.
Proof. unfold zev. now rewrite v_simp_ev. Qed.

Lemma v_is1_zev v : v_is1 v = true -> forall sg, zev sg v = 1.
Proof.
  intros H sg. apply zev_eq. destruct v as [q|e]; simpl in H.
  - apply Qeq_bool_iff in H. simpl. now rewrite H.
  - apply (e_eqb_sound _ _ (rho sg)) in H. simpl in *. now rewrite H.
Qed.
Lemma v_eqb_zev a b : v_eqb a b = true -> forall r, (evv r a == evv r b)%Q.
Proof.
  intros H r. destruct a as [p|e], b as [q|f]; simpl in *.
  - now apply Qeq_bool_iff in H.
  - apply (e_eqb_sound _ _ r) in H. simpl in *. now symmetry.
  - apply (e_eqb_sound _ _ r) in H. simpl in *. exact H.
  - apply (e_eqb_sound _ _ r) in H. simpl in *. exact H.
Qed.
Lemma NN_rho sg : NN sg -> forall x, (0 <= rho sg x)%Q.
Proof. intros H x. unfold rho. change 0%Q with (inject_Z 0). apply injZ_le. apply H. Qed.
Lemma always_ge_zev a b sg : NN sg -> iat sg a -> iat sg b -> always_ge a b = true -> zev sg b <= zev sg a.
Proof.
  intros Hn Ha Hb H. apply (always_ge_sound _ _ (rho sg)) in H; [|now apply NN_rho].
  rewrite (iat_spec _ _ Ha), (iat_spec _ _ Hb) in H. now apply injZ_le.
Qed.
