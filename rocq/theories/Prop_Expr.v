(** * C14, C15: symbolic expressions *)
Require Import ZArith List Lia Bool Arith QArith Qpower Lqa.
From Verif Require Import M_Expr P_Expr.
Import ListNotations.
Open Scope Q_scope.

(** A user's computation on expressions, and what it means. *)
Inductive prog :=
| PConst (q : Q) | PVar (x : nat)
| PAdd (a b : prog) | PSub (a b : prog) | PMul (a b : prog) | PNeg (a : prog)
| PPow (a : prog) (n : nat) | PDiv (a : prog) (z : Z) | PSubst (a : prog) (x : nat) (b : prog).

(** what the library computes *)
Fixpoint run (p : prog) : option val :=
  match p with
  | PConst q => Some (VS q)
  | PVar x => Some (VE (var_expr x))
  | PAdd a b => match run a, run b with Some x, Some y => Some (v_add x y) | _, _ => None end
  | PSub a b => match run a, run b with Some x, Some y => Some (v_sub x y) | _, _ => None end
  | PMul a b => match run a, run b with Some x, Some y => Some (v_mul x y) | _, _ => None end
  | PNeg a => match run a with Some x => Some (v_neg x) | None => None end
  | PPow a n => match run a with Some x => Some (v_pow x n) | None => None end
  | PDiv a z => match run a with
                | Some (VE e) => match e_div e z with Some f => Some (VE f) | None => None end
                | _ => None end
  | PSubst a x b => match run a, run b with
                    | Some v, Some w => v_subst v [(x, w)] | _, _ => None end
  end.

(** what it means: a rational function of the variables *)
Fixpoint den (p : prog) (rho : nat -> Q) : Q :=
  match p with
  | PConst q => q
  | PVar x => rho x
  | PAdd a b => den a rho + den b rho
  | PSub a b => den a rho - den b rho
  | PMul a b => den a rho * den b rho
  | PNeg a => - den a rho
  | PPow a n => Qpower (den a rho) (Z.of_nat n)
  | PDiv a z => den a rho / inject_Z z
  | PSubst a x b => den a (fun y => if Nat.eqb y x then den b rho else rho y)
  end.

Lemma ev_ext rho rho' e : (forall x, rho x == rho' x) -> ev rho e == ev rho' e.
Proof.
  intros H. unfold ev. induction (e_terms e) as [|t ts IH]; [reflexivity|].
  cbn [ev_terms fold_right]. fold (ev_terms rho ts) (ev_terms rho' ts).
  assert (G : ev_vps rho (t_vars t) == ev_vps rho' (t_vars t)).
  { induction (t_vars t) as [|[x p] vs IHv]; [reflexivity|].
    rewrite !ev_vps_cons, IHv, (qpow_comp _ _ p (H x)). reflexivity. }
  unfold ev_term. rewrite G. lra.
Qed.

Theorem C14_expression_arithmetic :
  forall (p : prog) (v : val) (rho : nat -> Q),
    run p = Some v -> evv rho v == den p rho.
Proof.
  induction p; intros v rho; simpl.
  - intros [= <-]. reflexivity.
  - intros [= <-]. apply var_expr_ev.
  - destruct (run p1) as [a|]; [|discriminate]. destruct (run p2) as [b|]; [|discriminate].
    intros [= <-]. rewrite v_add_ev, (IHp1 a rho eq_refl), (IHp2 b rho eq_refl). reflexivity.
  - destruct (run p1) as [a|]; [|discriminate]. destruct (run p2) as [b|]; [|discriminate].
    intros [= <-]. rewrite v_sub_ev, (IHp1 a rho eq_refl), (IHp2 b rho eq_refl). reflexivity.
  - destruct (run p1) as [a|]; [|discriminate]. destruct (run p2) as [b|]; [|discriminate].
    intros [= <-]. rewrite v_mul_ev, (IHp1 a rho eq_refl), (IHp2 b rho eq_refl). reflexivity.
  - destruct (run p) as [a|]; [|discriminate]. intros [= <-].
    rewrite v_neg_ev, (IHp a rho eq_refl). reflexivity.
  - destruct (run p) as [a|]; [|discriminate]. intros [= <-].
    rewrite v_pow_ev. apply qpow_comp, (IHp a rho eq_refl).
  - destruct (run p) as [[q|e]|]; try discriminate.
    destruct (e_div e z) as [f|] eqn:E; [|discriminate]. intros [= <-]. simpl.
    rewrite (e_div_ev rho e z f E). pose proof (IHp (VE e) rho eq_refl) as H. simpl in H.
    rewrite H. reflexivity.
  - destruct (run p1) as [a|]; [|discriminate]. destruct (run p2) as [b|]; [|discriminate].
    intros E. rewrite (v_subst_ev rho _ _ _ E).
    rewrite <- (IHp1 a _ eq_refl).
    destruct a as [q|e]; [reflexivity|]. simpl. apply ev_ext. intros y. unfold rho_subs. simpl.
    destruct (Nat.eqb y x); [|reflexivity]. apply (IHp2 b rho eq_refl).
Qed.

(** nothing raises except division by zero or dividing a plain number *)
Lemma run_pos p : forall v, run p = Some v -> val_pos v.
Proof.
  induction p; intros v; simpl.
  - intros [= <-]. exact I.
  - intros [= <-]. apply var_expr_pos.
  - destruct (run p1), (run p2); try discriminate. intros [= <-]. auto using v_add_pos.
  - destruct (run p1), (run p2); try discriminate. intros [= <-]. auto using v_sub_pos.
  - destruct (run p1), (run p2); try discriminate. intros [= <-]. auto using v_mul_pos.
  - destruct (run p); try discriminate. intros [= <-]. auto using v_neg_pos.
  - destruct (run p); try discriminate. intros [= <-]. auto using v_pow_pos.
  - destruct (run p) as [[q|e]|]; try discriminate.
    destruct (e_div e z) eqn:E; [|discriminate]. intros [= <-]. simpl.
    eapply e_div_pos; eauto. apply (IHp (VE e) eq_refl).
  - destruct (run p1), (run p2); try discriminate. intros E.
    eapply v_subst_pos; [| |exact E]; auto. constructor; [|constructor]. simpl. auto.
Qed.

Fixpoint no_div (p : prog) : Prop :=
  match p with
  | PConst _ | PVar _ => True
  | PAdd a b | PSub a b | PMul a b | PSubst a _ b => no_div a /\ no_div b
  | PNeg a | PPow a _ => no_div a
  | PDiv _ _ => False
  end.

Theorem C14_never_raises :
  forall p, no_div p -> exists v, run p = Some v.
Proof.
  induction p; simpl; intros H.
  - eauto.
  - eauto.
  - destruct H as [H1 H2]. destruct (IHp1 H1) as (a & ->), (IHp2 H2) as (b & ->). eauto.
  - destruct H as [H1 H2]. destruct (IHp1 H1) as (a & ->), (IHp2 H2) as (b & ->). eauto.
  - destruct H as [H1 H2]. destruct (IHp1 H1) as (a & ->), (IHp2 H2) as (b & ->). eauto.
  - destruct (IHp H) as (a & ->). eauto.
  - destruct (IHp H) as (a & ->). eauto.
  - contradiction.
  - destruct H as [H1 H2]. destruct (IHp1 H1) as (a & Ea), (IHp2 H2) as (b & Eb).
    rewrite Ea, Eb. destruct (v_subst a [(x, b)]) as [w|] eqn:E; [eauto|].
    exfalso. revert E. apply v_subst_total. eapply run_pos; eauto.
Qed.

(** substituting for several variables at once *)
Theorem C14_substitute :
  forall (v : val) (s : subs) (w : val) (rho : nat -> Q),
    v_subst v s = Some w ->
    evv rho w ==
    evv (fun x => match subs_get x s with Some u => evv rho u | None => rho x end) v.
Proof. intros v s w rho. apply v_subst_ev. Qed.

(** substituting numbers for all variables gives a number *)
Theorem C14_substitute_number :
  forall (p : prog) (e : expr) (s : subs),
    run p = Some (VE e) ->
    (forall x, In x (e_variables e) -> exists q, subs_get x s = Some (VS q)) ->
    exists q, v_subst (VE e) s = Some (VS q) /\
      forall rho, (forall x u, subs_get x s = Some (VS u) -> rho x == u) ->
        q == den p rho.
Proof.
  intros p e s R Hs. pose proof (run_pos p _ R) as W.
  destruct (v_subst (VE e) s) as [w|] eqn:E;
    [|exfalso; revert E; apply v_subst_total; exact W].
  assert (exists q, w = VS q) as [q ->].
  { simpl in E. destruct (e_is_const e) eqn:Ec; [injection E as <-; eauto|].
    unfold e_subst in E.
    destruct (terms_subst s (e_terms e) (VS 0)) as [u|] eqn:Et; [|discriminate].
    destruct (terms_subst_const s (e_terms e) 0) with (w := u) as (q & ->); auto.
    - intros t Ht x pw Hx. apply Hs. unfold e_variables. apply in_flat_map. exists t. split; auto.
      apply in_map_iff. exists (x, pw). auto.
    - injection E as <-. simpl. eauto. }
  exists q. split; [reflexivity|]. intros rho Hr.
  rewrite <- (C14_expression_arithmetic p _ rho R).
  pose proof (v_subst_ev rho _ _ _ E) as H. simpl in H. rewrite H. simpl. unfold ev.
  apply Qplus_comp; [|reflexivity].
  assert (G : forall ts, incl ts (e_terms e) ->
              ev_terms (rho_subs rho s) ts == ev_terms rho ts).
  { induction ts as [|t ts IH]; intros Hi; [reflexivity|]. rewrite !ev_terms_cons.
    rewrite IH by (intros z Hz; apply Hi; now right).
    assert (F : forall vs, incl vs (t_vars t) -> ev_vps (rho_subs rho s) vs == ev_vps rho vs).
    { induction vs as [|[x pw] vs IHv]; intros Hv; [reflexivity|]. rewrite !ev_vps_cons.
      rewrite IHv by (intros z Hz; apply Hv; now right).
      rewrite (qpow_comp (rho_subs rho s x) (rho x)); [reflexivity|].
      unfold rho_subs. destruct (Hs x) as (u & Eu).
      - unfold e_variables. apply in_flat_map. exists t. split; [apply Hi; now left|].
        apply in_map_iff. exists (x, pw). split; [reflexivity|apply Hv; now left].
      - rewrite Eu. simpl. symmetry. now apply Hr. }
    unfold ev_term. rewrite (F _ (incl_refl _)). reflexivity. }
  apply G, incl_refl.
Qed.

(** (x+3)*(y-2) - x*y with y := x+1 *)
Definition C14_prog : prog :=
  PSubst (PSub (PMul (PAdd (PVar 0) (PConst 3)) (PSub (PVar 1) (PConst 2)))
               (PMul (PVar 0) (PVar 1))) 1 (PAdd (PVar 0) (PConst 1)).
Example C14_case :
  run C14_prog = Some (VE (Expr [Term [(0%nat, 1%nat)] 1] (-3))) /\ no_div C14_prog.
Proof. split; [vm_compute; reflexivity|repeat split]. Qed.

(** the forms that the prover recognises: "variable plus constant" and "linear in one variable" *)
Theorem C14_variable_plus_constant :
  forall e x rho, variable_restricted e = Some x -> ev rho e == rho x + e_const e.
Proof.
  intros [[|t [|u l]] c] x rho; unfold variable_restricted, is_var_plus_const; cbn [e_terms e_const]; try discriminate.
  destruct t as [[|[y p] [|z r]] a]; cbn [t_coef t_vars]; rewrite ?andb_false_r; try discriminate.
  destruct (Qeq_bool a 1) eqn:Ea; [|discriminate]. destruct (Nat.eqb_spec p 1) as [->|]; [|discriminate]. intros [= ->].
  apply Qeq_bool_eq in Ea. unfold ev, ev_terms, ev_term, ev_vps. cbn [fold_right e_terms e_const t_coef t_vars fst snd]. rewrite Ea, qpow_S. change (qpow (rho x) 0) with 1. ring.
Qed.
Theorem C14_linear :
  forall e x a b rho, as_strictly_linear e = Some (x, a, b) -> ev rho e == a * rho x + b.
Proof.
  intros [[|t [|u l]] c] x a b rho; unfold as_strictly_linear; cbn [e_terms e_const]; try discriminate.
  destruct t as [[|[y p] [|z r]] k]; cbn [t_coef t_vars]; try discriminate.
  destruct (Nat.eqb_spec p 1) as [->|]; [|discriminate]. intros [= -> -> ->].
  unfold ev, ev_terms, ev_term, ev_vps. cbn [fold_right e_terms e_const t_coef t_vars fst snd]. rewrite qpow_S. change (qpow (rho x) 0) with 1. ring.
Qed.
Example C14_forms : variable_restricted (var_plus 3 4) = Some 3%nat /\ variable_restricted (Expr [Term [(3%nat, 1%nat)] 2] 4) = None /\
  as_strictly_linear (Expr [Term [(3%nat, 1%nat)] 2] 4) = Some (3%nat, 2, 4).
Proof. repeat split. Qed.

(** ** C15 *)

Theorem C15_minimum_is_lower_bound :
  forall v q rho, (forall x, 0 <= rho x) -> v_min_val v = Some q -> q <= evv rho v.
Proof. intros. now apply v_min_val_lower. Qed.

(** finite minima of computed expressions are attained *)
Theorem C15_minimum_attained :
  forall p v q, run p = Some v -> v_min_val v = Some q ->
    exists rho, (forall x, 0 <= rho x) /\ den p rho == q.
Proof.
  intros p v q R M. exists (fun _ => 0). split; [intros; lra|].
  rewrite <- (C14_expression_arithmetic p v _ R).
  apply v_min_val_attained; auto. eapply run_pos; eauto.
Qed.

Theorem C15_always_ge :
  forall a b rho, (forall x, 0 <= rho x) -> always_ge a b = true -> evv rho b <= evv rho a.
Proof. intros. now apply always_ge_sound. Qed.

Theorem C15_always_gt :
  forall a b rho, (forall x, 0 <= rho x) -> always_gt a b = true -> evv rho b < evv rho a.
Proof. intros. now apply always_gt_sound. Qed.

Theorem C15_equal :
  forall a b rho, e_eqb a b = true -> ev rho a == evv rho b.
Proof. intros. now apply e_eqb_sound. Qed.

Example C15_case :
  v_min_val (VE (Expr [Term [(0%nat, 2%nat)] 3; Term [(0%nat,1%nat);(1%nat,1%nat)] 1] 5)) = Some 5 /\
  always_gt (VE (var_plus 0 4)) (VE (var_plus 0 3)) = true /\
  always_ge (VE (var_plus 0 4)) (VE (var_plus 1 3)) = false /\
  e_eqb (expr_prod (var_plus 0 1) (var_plus 0 1))
        (v_add (VE (expr_prod (var_expr 0) (var_expr 0))) (VE (Expr [Term [(0%nat,1%nat)] 2] 1))) = true.
Proof. repeat split; vm_compute; reflexivity. Qed.

Print Assumptions C14_expression_arithmetic.
Print Assumptions C14_variable_plus_constant.
Print Assumptions C14_linear.
Print Assumptions C14_never_raises.
Print Assumptions C14_substitute.
Print Assumptions C14_substitute_number.
Print Assumptions C15_minimum_is_lower_bound.
Print Assumptions C15_minimum_attained.
Print Assumptions C15_always_ge.
Print Assumptions C15_always_gt.
Print Assumptions C15_equal.
