(** * Formula integers: sums, products, quotients and remainders are exact *)
Require Import ZArith List Lia Bool Znumtheory Permutation.
From Verif Require Import M_Math M_ExpInt Spec_ExpInt P_Math P_ExpInt.
Import ListNotations.
Open Scope Z_scope.

(** ** Bounds on Carmichael's function *)
Lemma lam_le p k : 1 < p -> (0 < k)%nat -> lam p k <= p ^ Z.of_nat k.
Proof.
  intros P K. unfold lam. destruct ((p =? 2) && Nat.leb 3 k) eqn:E.
  - apply andb_true_iff in E as [E _]. apply Z.eqb_eq in E. subst p. apply Z.pow_le_mono_r; lia.
  - replace (Z.of_nat k) with (1 + (Z.of_nat k - 1)) at 2 by lia. rewrite Z.pow_add_r, Z.pow_1_r by lia.
    assert (0 < p ^ (Z.of_nat k - 1)) by (apply Z.pow_pos_nonneg; lia). nia.
Qed.

Lemma lcm_le a b l : 0 < a -> 0 < b -> lcm a b = Some l -> l <= a * b.
Proof.
  intros A B E. destruct (lcm_eq a b (or_introl (Z.neq_sym _ _ (Z.lt_neq _ _ A)))) as [E1 E2]. rewrite E1 in E. injection E as <-.
  pose proof (Z.gcd_nonneg a b). assert (Z.gcd a b <> 0) by (intros G; apply Z.gcd_eq_0 in G; lia).
  apply Z.div_le_upper_bound; [lia|]. nia.
Qed.

Lemma carmichael_loop_bound fs : Forall (fun pk : Z * nat => In (fst pk) primes /\ (0 < snd pk)%nat) fs ->
  forall res mk r k0, 0 < res -> carmichael_loop fs res mk = Some (r, k0) ->
  r <= res * prod fs /\ (k0 = mk \/ exists p, In (p, k0) fs).
Proof.
  induction fs as [|[p k] fs IH]; intros F res mk r k0 R; cbn [carmichael_loop].
  - intros [= <- <-]. split; [cbn; lia|auto].
  - inversion F as [|? ? [F1 F2] F3]; subst. cbn in F1, F2. pose proof (prime_ge_2 _ (primes_prime p F1)) as P2.
    change (if (p =? 2) && Nat.leb 3 k then 2 ^ (Z.of_nat k - 2) else (p - 1) * p ^ (Z.of_nat k - 1)) with (lam p k).
    pose proof (lam_pos p k ltac:(lia) F2) as LP. pose proof (lam_le p k ltac:(lia) F2) as LE.
    destruct (lcm res (lam p k)) as [l|] eqn:E; [|discriminate]. pose proof (lcm_pos _ _ _ R LP E) as L0. pose proof (lcm_le _ _ _ R LP E) as L1.
    intros X. destruct (IH F3 _ _ _ _ L0 X) as (I1 & I2).
    assert (P0 : 0 < prod fs).
    { clear - F3. induction fs as [|[q j] fs IHf]; [cbn; lia|]. inversion F3 as [|? ? [G1 G2] G3]; subst. cbn in G1, G2.
      pose proof (prime_ge_2 _ (primes_prime q G1)). unfold prod. cbn [fold_right fst snd]. apply Z.mul_pos_pos; [apply Z.pow_pos_nonneg; lia|]. now apply IHf. }
    split.
    + change (prod ((p, k) :: fs)) with (p ^ Z.of_nat k * prod fs).
      apply (Z.le_trans _ (l * prod fs)); [auto|]. rewrite Z.mul_assoc. apply Z.mul_le_mono_nonneg_r; [lia|]. nia.
    + destruct I2 as [->|(q & I2)]; [|right; exists q; simpl; auto].
      destruct (Nat.max_spec mk k) as [(_ & ->)|(_ & ->)]; [right; exists p; simpl; auto|auto].
Qed.

Lemma prod_ge fs p k : Forall (fun pk : Z * nat => In (fst pk) primes /\ (0 < snd pk)%nat) fs -> In (p, k) fs -> 2 ^ Z.of_nat k <= prod fs.
Proof.
  assert (P0 : forall fs, Forall (fun pk : Z * nat => In (fst pk) primes /\ (0 < snd pk)%nat) fs -> 0 < prod fs).
  { clear. intros fs F3. induction fs as [|[q j] fs IHf]; [cbn; lia|]. inversion F3 as [|? ? [G1 G2] G3]; subst. cbn in G1, G2.
    pose proof (prime_ge_2 _ (primes_prime q G1)). unfold prod. cbn [fold_right fst snd]. apply Z.mul_pos_pos; [apply Z.pow_pos_nonneg; lia|]. now apply IHf. }
  induction fs as [|[q j] fs IH]; intros F I; [destruct I|]. inversion F as [|? ? [F1 F2] F3]; subst. cbn in F1, F2.
  pose proof (prime_ge_2 _ (primes_prime q F1)) as P2. specialize (P0 fs F3). change (prod ((q, j) :: fs)) with (q ^ Z.of_nat j * prod fs).
  assert (0 < q ^ Z.of_nat j) by (apply Z.pow_pos_nonneg; lia).
  destruct I as [[= <- <-]|I].
  - assert (2 ^ Z.of_nat j <= q ^ Z.of_nat j) by (apply Z.pow_le_mono_l; lia). nia.
  - specialize (IH F3 I). assert (0 < 2 ^ Z.of_nat k) by (apply Z.pow_pos_nonneg; lia). nia.
Qed.

Lemma carmichael_bound n kp k0 : 2 <= n -> carmichael n = Some (kp, k0) -> kp <= n /\ Z.of_nat k0 <= Z.log2 n.
Proof.
  intros N. unfold carmichael. pose proof (prime_factor_ok n ltac:(lia)) as PF.
  destruct (prime_factor n) as [fs|]; [|discriminate]. destruct PF as (P & F & _). intros E.
  apply carmichael_loop_bound in E; auto; [|lia]. destruct E as (E1 & E2). split; [lia|].
  destruct E2 as [->|(p & I)].
  - change (Z.of_nat 1) with 1. apply (Z.log2_le_mono 2 n N).
  - apply Z.log2_le_pow2; [lia|]. rewrite <- P. eapply prod_ge; eauto.
Qed.

Section ExpInt.
  Variable fl : floats.
  Hypothesis sqrt_neg : forall n, n < 0 -> fl_sqrt fl n = None.
  Let ctors := constructors fl sqrt_neg.

  (** ** Structural equality *)
  Fixpoint se_n (a : num fl) {struct a} : forall b, struct_eq a b = true -> value a = value b
  with se_e (x : expint fl) {struct x} : forall y, struct_eq_e x y = true -> value_e x = value_e y
  with se_t (t : term fl) {struct t} : forall u, struct_eq_t t u = true -> value_t t = value_t u.
  Proof.
    - destruct a as [z|x]; intros [z'|y] H; try discriminate; cbn in *.
      + now apply Z.eqb_eq.
      + now apply se_e.
    - destruct x as [ts c d b n w s]. intros [us c' d' b' n' w' s'] H. cbn [struct_eq_e] in H. rewrite !value_e_eq. cbn [e_terms e_const e_denom].
      apply andb_true_iff in H. destruct H as (H & Ht). apply andb_true_iff in H. destruct H as (Hc & Hd). apply Z.eqb_eq in Hc, Hd. subst c' d'.
      f_equal. f_equal. revert us Ht. clear - se_t. revert ts. fix go 1. intros [|t ts] [|u us] H; try discriminate; [reflexivity|].
      apply andb_true_iff in H. destruct H as (H1 & H2). rewrite !sum_cons. f_equal; [now apply se_t|now apply go].
    - destruct t as [b c e n w]. intros [b' c' e' n' w'] H. cbn [struct_eq_t] in H.
      apply andb_true_iff in H. destruct H as (H & He). apply andb_true_iff in H. destruct H as (Hb & Hc). apply Z.eqb_eq in Hb, Hc. subst b' c'.
      rewrite !value_t_eq. cbn [t_coef t_base t_exponent]. f_equal. f_equal. now apply se_n.
  Qed.

  (** ** Normalisation of sums *)
  Lemma insert_perm t (l : list (term fl)) : Permutation (insert_term t l) (t :: l).
  Proof.
    induction l as [|u l IH]; simpl; auto. destruct (tower_gt _ _); auto. rewrite IH. apply perm_swap.
  Qed.
  Lemma sort_perm (l : list (term fl)) : Permutation (sort_terms l) l.
  Proof.
    unfold sort_terms. assert (X : forall l acc : list (term fl), Permutation (fold_left (fun l t => insert_term t l) l acc) (acc ++ l)).
    { clear l. induction l as [|t l IH]; intros acc; simpl; [now rewrite app_nil_r|]. rewrite IH, insert_perm. simpl. apply Permutation_middle. }
    apply X.
  Qed.
  Lemma sum_perm (a b : list (term fl)) : Permutation a b -> sum a = sum b.
  Proof. induction 1; simpl; lia. Qed.

  Definition pv (p : option (Z * Z * num fl)) : Z := match p with None => 0 | Some (b, c, e) => c * b ^ value e end.
  Definition pok (p : option (Z * Z * num fl)) : Prop := match p with None => True | Some (b, c, e) => wf e /\ 0 <= value e end.

  Lemma merge_ok fuel (ts : list (term fl)) : forall p r, pok p -> Forall wf_t ts -> merge_terms fuel p ts = Some r -> Forall wf_t r /\ sum r = pv p + sum ts.
  Proof.
    assert (Fl : forall p r, pok p -> (match p with
                 | Some (b, c, e) => if c =? 0 then Some [] else match mk_term fuel b c e with Some t => Some [t] | None => None end
                 | None => Some []
                 end) = Some r -> Forall wf_t r /\ sum r = pv p).
    { intros [[[b c] e]|] r Hp; [|intros [= <-]; split; [constructor|reflexivity]]. destruct Hp as (H1 & H2).
      destruct (Z.eqb_spec c 0) as [->|]; [intros [= <-]; split; [constructor|reflexivity]|].
      destruct (mk_term fuel b c e) as [t|] eqn:E; [|discriminate]. intros [= <-]. apply ctors in E; auto. destruct E as (E1 & E2).
      split; [constructor; auto|]. cbn. rewrite E2. lia. }
    induction ts as [|t ts IH]; intros p r Hp Hts; cbn [merge_terms].
    - intros E. destruct (Fl p r Hp E) as (H1 & H2). split; auto. cbn. lia.
    - inversion Hts as [|? ? Ht Hts']; subst. pose proof (proj1 (wf_t_eq _ _) Ht) as (T1 & T2 & T3 & T4 & _).
      assert (New : forall r, match (match p with
                 | Some (b, c, e) => if c =? 0 then Some [] else match mk_term fuel b c e with Some t => Some [t] | None => None end
                 | None => Some []
                 end), merge_terms fuel (Some (t_base t, t_coef t, t_exponent t)) ts with
        | Some l, Some r => Some (l ++ r)
        | _, _ => None
        end = Some r -> Forall wf_t r /\ sum r = pv p + sum (t :: ts)).
      { intros r0. match goal with |- context [match ?f with Some _ => _ | None => None end] => destruct f as [l|] eqn:El; [|discriminate] end.
        apply Fl in El; auto. destruct El as (L1 & L2). destruct (merge_terms fuel (Some _) ts) as [q|] eqn:Eq; [|discriminate]. intros [= <-].
        apply IH in Eq; [|split; assumption|exact Hts']. destruct Eq as (Q1 & Q2). split; [apply Forall_app; auto|]. rewrite sum_app, L2, Q2, sum_cons. cbn [pv]. rewrite value_t_eq. lia. }
      destruct p as [[[b c] e]|]; [|apply New]. destruct (struct_eq (t_exponent t) e) eqn:Es; [|apply New].
      destruct (Z.eqb_spec (t_base t) b) as [<-|]; [|discriminate]. intros E. apply IH in E; [|exact Hp|exact Hts']. destruct E as (E1 & E2). split; auto.
      rewrite E2, sum_cons, value_t_eq. cbn [pv]. apply se_n in Es. rewrite Es. ring.
  Qed.

  Lemma normalize_ok fuel (ts r : list (term fl)) : Forall wf_t ts -> normalize_terms fuel ts = Some r -> Forall wf_t r /\ sum r = sum ts.
  Proof.
    intros Hw. unfold normalize_terms. destruct ts as [|t0 ts0] eqn:Et; [discriminate|]. rewrite <- Et in *. clear Et ts0.
    destruct (forallb _ ts); [|discriminate]. intros E. apply merge_ok in E; [|exact I|].
    - destruct E as (E1 & E2). split; auto. rewrite E2. cbn [pv]. rewrite (sum_perm _ _ (sort_perm ts)). lia.
    - eapply Permutation_Forall; [symmetry; apply sort_perm|exact Hw].
  Qed.

  (** ** Construction from base and exponent *)
  Lemma exp_int_ok fuel b (e y : num fl) : wf e -> 0 <= value e -> exp_int fuel b e = Some y -> wf y /\ value y = b ^ value e.
  Proof.
    intros He Hv. unfold exp_int.
    assert (X : match mk_term fuel b 1 e with
           | Some t => match mk_expint fuel [t] 0 1 with Some x => Some (Exp x) | None => None end
           | None => None
           end = Some y -> wf y /\ value y = b ^ value e).
    { destruct (mk_term fuel b 1 e) as [t|] eqn:Et; [|discriminate]. destruct (mk_expint fuel [t] 0 1) as [x|] eqn:Ex; [|discriminate]. intros [= <-].
      apply ctors in Et; auto. destruct Et as (T1 & T2). apply ctors in Ex; [|constructor; auto|lia|apply Z.divide_1_l].
      destruct Ex as (X1 & X2). split; [exact X1|]. change (value_e x = b ^ value e). rewrite X2, sum_cons, T2. cbn [sum fold_right]. rewrite Z.div_1_r. lia. }
    destruct e as [[|z|z]|k]; auto. intros [= <-]. split; [exact I|reflexivity].
  Qed.

  (** ** Sums *)
  Lemma mul_terms_ok fuel (ts us : list (term fl)) n : Forall wf_t ts -> omap (fun t => mul_term_int fuel t n) ts = Some us ->
    Forall wf_t us /\ sum us = sum ts * n.
  Proof.
    intros Hw E. apply omap_ok in E. apply (terms_scale _ _ _ _ n E). intros t u Hin Hu. unfold mul_term_int in Hu.
    destruct (n =? 0); [discriminate|]. rewrite Forall_forall in Hw. specialize (Hw t Hin). apply wf_t_eq in Hw. destruct Hw as (T1 & T2 & T3 & T4 & _).
    apply ctors in Hu; auto. destruct Hu as (U1 & U2). split; auto. rewrite U2, value_t_eq. ring.
  Qed.

  Lemma div_same a d q : d <> 0 -> (d | a) -> a / d = q <-> a = q * d.
  Proof. intros Hd (k & ->). rewrite Z.div_mul by auto. split; [intros ->; ring|]. intros H. apply Z.mul_reg_r in H; auto. Qed.

  Lemma value_mul (x : expint fl) : wf_e x -> sum (e_terms x) + e_const x = value_e x * e_denom x.
  Proof. intros H. apply wf_e_eq in H. destruct H as (_ & H1 & H2 & _). apply div_same; [lia|auto|]. symmetry. apply value_e_eq. Qed.

  (** a sum of terms with a constant and a denominator, or a plain integer when the terms cancel *)
  Lemma finish_ok fuel (ts : list (term fl)) c d y v : Forall wf_t ts -> d <> 0 -> sum ts + c = v * d ->
    match ts with [] => if d =? 0 then None else Some (Int (c / d)) | _ => wrap (mk_expint fuel ts c d) end = Some y -> wf y /\ value y = v.
  Proof.
    intros Hw Hd Hs. destruct ts as [|t ts0] eqn:Et; [|rewrite <- Et in *; clear Et].
    - destruct (Z.eqb_spec d 0); [lia|]. intros [= <-]. split; [exact I|]. cbn in *. rewrite Hs. now apply Z.div_mul.
    - unfold wrap. destruct (mk_expint _ _ c d) as [x|] eqn:Ex; [|discriminate]. intros [= <-]. apply ctors in Ex; auto; [|exists v; auto].
      destruct Ex as (X1 & X2). split; [exact X1|]. change (value_e x = v). rewrite X2, Hs. now apply Z.div_mul.
  Qed.

  Lemma add_exp_ok fuel (x y : expint fl) z : wf_e x -> wf_e y -> add_exp fuel x y = Some z -> wf z /\ value z = value_e x + value_e y.
  Proof.
    intros Hx Hy. unfold add_exp. pose proof (value_mul x Hx) as Vx. pose proof (value_mul y Hy) as Vy.
    apply wf_e_eq in Hx, Hy. destruct Hx as (_ & X1 & _ & X2 & _). destruct Hy as (_ & Y1 & _ & Y2 & _).
    destruct (lcm_div (e_denom x) (e_denom y)) as (d & Ed & (q1 & D1) & (q2 & D2) & _); [lia|]. rewrite Ed. pose proof (lcm_pos _ _ _ X1 Y1 Ed) as Hd.
    assert (N1 : d / e_denom x = q1) by (rewrite D1; apply Z.div_mul; lia).
    assert (N2 : d / e_denom y = q2) by (rewrite D2; apply Z.div_mul; lia). rewrite N1, N2. cbv zeta.
    destruct (omap _ (e_terms x)) as [ts|] eqn:Et; [|discriminate]. destruct (omap _ (e_terms y)) as [us|] eqn:Eu; [|discriminate].
    apply mul_terms_ok in Et; auto. apply mul_terms_ok in Eu; auto. destruct Et as (T1 & T2). destruct Eu as (U1 & U2).
    destruct (normalize_terms fuel (ts ++ us)) as [r|] eqn:En; [|discriminate]. apply normalize_ok in En; [|apply Forall_app; auto]. destruct En as (R1 & R2).
    rewrite sum_app, T2, U2 in R2.
    intros E. eapply finish_ok with (d := d); [exact R1|lia| |].
      2:{ destruct r; exact E. }
      rewrite R2. replace (sum (e_terms x)) with (value_e x * e_denom x - e_const x) by lia. replace (sum (e_terms y)) with (value_e y * e_denom y - e_const y) by lia.
      rewrite Z.mul_add_distr_r. rewrite D1 at 1. rewrite D2 at 1. ring.
  Qed.

  Lemma add_ok' fuel (x y z : num fl) : wf x -> wf y -> add fuel x y = Some z -> wf z /\ value z = value x + value y.
  Proof.
    intros Hx Hy. destruct x as [a|x], y as [b|y]; cbn [add].
    - intros [= <-]. split; [exact I|reflexivity].
    - intros E. apply ctors in E; auto. destruct E as (E1 & ->). split; auto. cbn [value]. lia.
    - intros E. apply ctors in E; auto.
    - apply add_exp_ok; auto.
  Qed.

  (** ** Products *)
  Lemma mul_term_ok fuel (t u v : term fl) : wf_t t -> wf_t u -> mul_term fuel t u = Some v -> wf_t v /\ value_t v = value_t t * value_t u.
  Proof.
    intros Ht Hu. apply wf_t_eq in Ht, Hu. destruct Ht as (T1 & T2 & T3 & T4 & _). destruct Hu as (U1 & U2 & U3 & U4 & _).
    unfold mul_term. destruct (Z.eqb_spec (t_base t) (t_base u)) as [Eb|]; [|discriminate].
    destruct (add fuel _ _) as [e|] eqn:Ee; [|discriminate]. apply add_ok' in Ee; auto. destruct Ee as (E1 & E2). intros E.
    apply ctors in E; auto; [|lia]. destruct E as (V1 & V2). split; auto. rewrite V2, !value_t_eq, E2, Eb, Z.pow_add_r by lia. ring.
  Qed.

  Lemma oapp_ok {A} (a b : option (list A)) r : oapp a b = Some r -> exists x y, a = Some x /\ b = Some y /\ r = x ++ y.
  Proof. destruct a as [x|], b as [y|]; try discriminate. intros [= <-]. eauto. Qed.

  Lemma mul_row_ok fuel (t : term fl) us c r : wf_t t -> Forall wf_t us ->
    oapp (if c =? 0 then Some [] else omap (fun t => mul_term_int fuel t c) [t]) (omap (mul_term fuel t) us) = Some r ->
    Forall wf_t r /\ sum r = value_t t * (sum us + c).
  Proof.
    intros Ht Hu E. apply oapp_ok in E. destruct E as (a & b & Ea & Eb & ->).
    assert (A : Forall wf_t a /\ sum a = value_t t * c).
    { destruct (Z.eqb_spec c 0) as [->|]; [injection Ea as <-; split; [constructor|cbn; lia]|].
      apply mul_terms_ok in Ea; [|constructor; auto]. destruct Ea as (A1 & A2). split; auto. rewrite A2. cbn [sum fold_right]. ring. }
    assert (B : Forall wf_t b /\ sum b = sum us * value_t t).
    { apply omap_ok in Eb. apply (terms_scale _ _ _ _ _ Eb). intros u v Hin Hv. rewrite Forall_forall in Hu. apply mul_term_ok in Hv; auto.
      destruct Hv as (V1 & V2). split; auto. rewrite V2. ring. }
    split; [apply Forall_app; tauto|]. rewrite sum_app. destruct A as (_ & ->). destruct B as (_ & ->). ring.
  Qed.

  Lemma mul_rows_ok fuel (ts us : list (term fl)) c r : Forall wf_t ts -> Forall wf_t us ->
    fold_right oapp (Some []) (map (fun t => oapp (if c =? 0 then Some [] else omap (fun t => mul_term_int fuel t c) [t]) (omap (mul_term fuel t) us)) ts) = Some r ->
    Forall wf_t r /\ sum r = sum ts * (sum us + c).
  Proof.
    intros Ht Hu. revert r. induction ts as [|t ts IH]; intros r; cbn [map fold_right]; [intros [= <-]; split; [constructor|reflexivity]|].
    intros E. inversion Ht as [|? ? H1 H2]; subst. apply oapp_ok in E. destruct E as (a & b & Ea & Eb & ->).
    apply mul_row_ok in Ea; auto. destruct (IH H2 b Eb) as (B1 & B2). destruct Ea as (A1 & A2).
    split; [apply Forall_app; auto|]. rewrite sum_app, sum_cons, A2, B2. ring.
  Qed.

  Lemma mul_exp_ok fuel (x y : expint fl) z : wf_e x -> wf_e y -> mul_exp fuel x y = Some z -> wf z /\ value z = value_e x * value_e y.
  Proof.
    intros Hx Hy. unfold mul_exp. pose proof (value_mul x Hx) as Vx. pose proof (value_mul y Hy) as Vy.
    apply wf_e_eq in Hx, Hy. destruct Hx as (_ & X1 & _ & X2 & _). destruct Hy as (_ & Y1 & _ & Y2 & _).
    destruct (e_base x =? e_base y); [|discriminate]. cbv zeta.
    match goal with |- context [oapp ?a ?b] => destruct (oapp a b) as [ts|] eqn:Eo; [|discriminate] end.
    apply oapp_ok in Eo. destruct Eo as (a & b & Ea & Eb & ->). apply mul_rows_ok in Ea; auto. destruct Ea as (A1 & A2).
    assert (B : Forall wf_t b /\ sum b = sum (e_terms y) * e_const x).
    { destruct (Z.eqb_spec (e_const x) 0) as [->|]; [injection Eb as <-; split; [constructor|cbn; lia]|]. apply mul_terms_ok in Eb; auto. }
    destruct B as (B1 & B2).
    destruct (normalize_terms fuel (a ++ b)) as [r|] eqn:En; [|discriminate]. apply normalize_ok in En; [|apply Forall_app; auto]. destruct En as (R1 & R2).
    rewrite sum_app, A2, B2 in R2. intros E. eapply finish_ok with (d := e_denom x * e_denom y) (ts := r); [exact R1|nia| |].
    2:{ destruct r; [|exact E]. destruct (Z.eqb_spec (e_denom x * e_denom y) 0); [nia|exact E]. }
    rewrite R2. replace (sum (e_terms x)) with (value_e x * e_denom x - e_const x) by lia. replace (sum (e_terms y)) with (value_e y * e_denom y - e_const y) by lia. ring.
  Qed.

  Lemma try_simplify_ok (x y : num fl) : wf x -> try_simplify x = Some y -> wf y /\ value y = value x.
  Proof.
    unfold try_simplify. intros Hx. destruct (try_eval x) as [[z|]|] eqn:E; try discriminate; intros [= <-].
    - split; [exact I|]. now apply try_eval_ok.
    - auto.
  Qed.

  Lemma mul_ok' fuel (x y z : num fl) : wf x -> wf y -> mul fuel x y = Some z -> wf z /\ value z = value x * value y.
  Proof.
    intros Hx Hy. destruct x as [a|x]; cbn [mul].
    - destruct y as [b|y]; [intros [= <-]; split; [exact I|reflexivity]|]. intros E. apply ctors in E; auto. destruct E as (E1 & ->). split; auto. cbn [value]. ring.
    - destruct (try_simplify y) as [y'|] eqn:Ey; [|discriminate]. apply try_simplify_ok in Ey; auto. destruct Ey as (Y1 & <-).
      destruct y' as [b|y']; [intros E; apply ctors in E; auto|]. apply mul_exp_ok; auto.
  Qed.

  (** ** Negation, difference and quotient *)
  Lemma neg_ok fuel (x y : num fl) : wf x -> neg fuel x = Some y -> wf y /\ value y = - value x.
  Proof.
    intros Hx. destruct x as [a|x]; cbn [neg]; [intros [= <-]; split; [exact I|reflexivity]|]. intros E. apply ctors in E; auto. destruct E as (E1 & ->). split; auto. lia.
  Qed.

  Lemma sub_ok fuel (x y z : num fl) : wf x -> wf y -> sub fuel x y = Some z -> wf z /\ value z = value x - value y.
  Proof.
    intros Hx Hy. assert (X : match neg fuel y with Some y => add fuel x y | None => None end = Some z -> wf z /\ value z = value x - value y).
    { destruct (neg fuel y) as [y'|] eqn:En; [|discriminate]. apply neg_ok in En; auto. destruct En as (N1 & N2). intros E. apply add_ok' in E; auto.
      destruct E as (E1 & ->). split; auto. lia. }
    destruct x as [a|x]; [|exact X]. destruct y as [b|y]; [intros [= <-]; split; [exact I|reflexivity]|]. cbn [sub].
    destruct (neg fuel (Exp y)) as [y'|] eqn:En; [|discriminate]. apply neg_ok in En; auto. destruct En as (N1 & N2). intros E. apply add_ok' in E; auto.
    destruct E as (E1 & ->). split; auto. lia.
  Qed.

  Lemma truediv_ok fuel (x : expint fl) (y z : num fl) : wf_e x -> wf y -> (value y | value_e x) -> truediv fuel x y = Some z ->
    value y <> 0 /\ wf z /\ value z * value y = value_e x.
  Proof.
    intros Hx Hy Hd. unfold truediv. destruct (try_eval y) as [[k|]|] eqn:Ey; try discriminate. pose proof (try_eval_ok _ y k Hy Ey) as ->.
    destruct (Z.eqb_spec (value y) 0) as [|Hk]; [discriminate|]. unfold wrap. destruct (mk_expint _ _ _ _) as [q|] eqn:Eq; [|discriminate]. intros [= <-].
    pose proof (value_mul x Hx) as V. apply wf_e_eq in Hx. destruct Hx as (_ & X1 & X2 & X3 & _). destruct Hd as (k & Hk').
    assert (S : sum (e_terms x) + e_const x = k * (e_denom x * value y)) by (rewrite V, Hk'; ring).
    apply ctors in Eq; auto; [|nia|exists k; exact S]. destruct Eq as (Q1 & Q2). split; auto. split; [exact Q1|]. change (value_e q * value y = value_e x).
    rewrite Q2, S, Z.div_mul by nia. now rewrite Hk'.
  Qed.

  (** ** Remainders *)

  Lemma add_int_terms fuel (k : expint fl) z y : 0 < e_denom k -> reduced k -> add_int fuel (Exp k) z = Some y ->
    exists k', y = Exp k' /\ e_terms k' = e_terms k /\ e_denom k' = e_denom k.
  Proof.
    intros Hd Hr. destruct fuel as [|fuel]; [discriminate|]. rewrite add_int_S. destruct fuel as [|fuel]; [discriminate|].
    rewrite mk_expint_S. destruct (e_terms k) as [|t0 ts0] eqn:Et; [discriminate|]. rewrite gcd_eq. cbv zeta.
    assert (G : Z.abs (Z.gcd (e_const k + z * e_denom k) (e_denom k)) * Z.sgn (e_denom k) = Z.gcd (e_const k) (e_denom k)).
    { rewrite Z.sgn_pos, Z.mul_1_r by lia. rewrite Z.abs_eq by apply Z.gcd_nonneg. rewrite (Z.gcd_comm _ (e_denom k)), Z.gcd_add_mult_diag_r. apply Z.gcd_comm. }
    rewrite G. rewrite common_loop_ok. unfold reduced in Hr. rewrite Et in Hr. rewrite Hr.
    assert (X : (if Z.gcd (e_const k) (e_denom k) =? 1 then Some 1 else Some 1) = Some 1) by (destruct (_ =? _); reflexivity). rewrite X.
    change (1 =? 1) with true. cbv iota. destruct (0 <? e_denom k); [|discriminate]. destruct (MAX_DEPTH <? _); [discriminate|].
    destruct (eval_int _ _ _) as [[w sg]|]; [|discriminate]. destruct (forallb _ _); [|discriminate]. intros [= <-]. eexists. split; [reflexivity|]. split; reflexivity.
  Qed.

  Fixpoint sized_e (m : Z) (x : expint fl) : Prop :=
    match x with
    | EI ts _ d _ _ _ _ =>
      (fix all (ts : list (term fl)) : Prop := match ts with [] => True | t :: ts => sized_t (m * d) t /\ all ts end) ts
    end
  with sized_t (m : Z) (t : term fl) : Prop :=
    match t with
    | ET _ _ (Int _) _ _ => True
    | ET _ _ (Exp k) _ _ => reduced k /\ match try_eval (Exp k) with Some (Some _) => True | _ => Z.log2 m <= value_e k end /\ sized_e m k
    end.
  Fixpoint sized_normal_e (x : expint fl) {struct x} : forall m, normal_e x -> large_e m x -> sized_e m x
  with sized_normal_t (t : term fl) {struct t} : forall m, normal_t t -> large_t m t -> sized_t m t.
  Proof.
    - destruct x as [ts c d b n w s]. intros m (_ & _ & N). cbn [large_e sized_e]. revert N. clear - sized_normal_t. revert ts. fix go 1. intros [|t ts] N H; [exact I|].
      destruct N as (N1 & N2). destruct H as (H1 & H2). split; [now apply sized_normal_t|now apply go].
    - destruct t as [b c [z|k] n w]; intros m N H; [exact I|]. destruct N as (_ & _ & _ & N). destruct H as (H1 & H2). cbn [sized_t].
      split; [|split; [exact H1|apply sized_normal_e; auto]]. destruct k. apply N.
  Qed.
  Lemma sized_e_eq m (x : expint fl) : sized_e m x <-> Forall (sized_t (m * e_denom x)) (e_terms x).
  Proof.
    destruct x as [ts c d b n w s]. cbn [sized_e e_terms e_denom].
    induction ts as [|t ts IH]; split; intros H; auto.
    - destruct H as (H1 & H2). constructor; auto. now apply IH.
    - inversion H; subst. split; auto. now apply IH.
  Qed.

  Fixpoint sized_mono_e (x : expint fl) {struct x} : forall m m', wf_e x -> m' <= m -> sized_e m x -> sized_e m' x
  with sized_mono_t (t : term fl) {struct t} : forall m m', wf_t t -> m' <= m -> sized_t m t -> sized_t m' t.
  Proof.
    - destruct x as [ts c d b n w s]. intros m m' Hw Hm. cbn [sized_e].
      apply wf_e_eq in Hw. destruct Hw as (_ & Hd & _ & Hw & _). cbn [e_terms e_denom] in *. assert (Hm' : m' * d <= m * d) by nia.
      revert Hw. clear - sized_mono_t Hm'. revert ts. fix go 1. intros [|t ts] Hw H; auto. destruct H as (H1 & H2). split.
      + apply (sized_mono_t t (m * d)); auto. now inversion Hw.
      + apply go; auto. now inversion Hw.
    - destruct t as [b c [z|k] n w]; intros m m' Hw Hm; auto. cbn [sized_t]. intros (H1 & H2 & H3). split; auto. split.
      + destruct (try_eval (Exp k)) as [[a|]|]; auto; (apply (Z.le_trans _ (Z.log2 m)); auto; now apply Z.log2_le_mono).
      + apply (sized_mono_e k m); auto. apply wf_t_eq in Hw. cbn in Hw. tauto.
  Qed.

  Lemma lt_small fuel (k : expint fl) z a : wf_e k -> try_eval (Exp k) = Some (Some a) -> 0 <= value_e k -> 0 <= z -> lt 3 fuel k (Int z) = Some false -> z <= value_e k.
  Proof.
    intros Hw Ea Hv Hz. pose proof (try_eval_ok _ (Exp k) a Hw Ea) as Va. change (value (Exp k)) with (value_e k) in Va.
    apply wf_e_eq in Hw. destruct Hw as (_ & _ & _ & _ & Hw). unfold lt. change (option_map negb (ge 3 fuel k (Int z)) = Some false -> z <= value_e k).
    cbn [try_eval] in Ea. unfold try_eval_attr in Ea. destruct (top_ge0 _); [|discriminate].
    destruct (e_tower k) as [[|h] [t|f]] eqn:Et; try discriminate. injection Ea as Ea. cbn [attr_ok] in Hw. destruct Hw as (W1 & W3).
    unfold ge; fold (@ge fl). destruct (Z.ltb_spec (e_sign k) 0) as [S|S]; [lia|]. cbn [sign]. destruct (Z.ltb_spec (Z.sgn z) 0); [lia|].
    rewrite Et. unfold tower_ge, tower_cmp. cbn [fst snd Nat.compare tower_value top_cmp]. intros E. injection E as E.
    rewrite Z.abs_eq in E by lia. destruct (Z.compare_spec t z) as [C|C|C]; try discriminate; lia.
  Qed.

  Definition term_mod (fuel : nat) (m : Z) (t : term fl) : option Z :=
    match (match carmichael m with
           | None => None
           | Some (kp, k0) =>
             match t_exponent t with
             | Int k => exp_mod (t_base t) k m
             | Exp k =>
               match lt 3 fuel k (Int (Z.of_nat k0)) with
               | Some false =>
                 match add_int fuel (Exp k) (- Z.of_nat k0) with
                 | Some (Exp k') => match mod_int fuel k' kp with
                                    | Some r => py_pow (t_base t) (r + Z.of_nat k0) m
                                    | None => None
                                    end
                 | _ => None
                 end
               | _ => None
               end
             end
           end) with
    | Some r => Some (r * t_coef t mod m)
    | None => None
    end.
  Lemma mod_int_S fuel (x : expint fl) other : mod_int (S fuel) x other =
    if other =? 0 then None else if other =? 1 then Some 0 else
    match omap (term_mod fuel (e_denom x * other)) (e_terms x) with
    | None => None
    | Some rs => let terms_rem := fold_right Z.add 0 rs mod (e_denom x * other) in
                 let rd := (terms_rem + e_const x) mod (e_denom x * other) in
                 if rd mod e_denom x =? 0 then Some (rd / e_denom x mod other) else None
    end.
  Proof. reflexivity. Qed.

  Lemma mod_int_ok fuel : forall (x : expint fl) n r, wf_e x -> sized_e n x -> mod_int fuel x n = Some r -> r = value_e x mod n.
  Proof.
    induction fuel as [|fuel IH]; intros x n r Hx Hz; [discriminate|]. rewrite mod_int_S.
    destruct (Z.eqb_spec n 0) as [|N0]; [discriminate|]. destruct (Z.eqb_spec n 1) as [->|N1]; [intros [= <-]; symmetry; apply Z.mod_1_r|].
    pose proof (value_mul x Hx) as V. pose proof Hx as Hx'. apply wf_e_eq in Hx'. destruct Hx' as (Xne & X1 & X2 & X3 & _). apply sized_e_eq in Hz.
    set (m := e_denom x * n).
    assert (T : forall t v, In t (e_terms x) -> term_mod fuel m t = Some v -> 2 <= m /\ v = value_t t mod m).
    { intros t v Hin. rewrite Forall_forall in X3, Hz. specialize (X3 t Hin). specialize (Hz t Hin). apply wf_t_eq in X3. destruct X3 as (T1 & T2 & T3 & T4 & _).
      unfold term_mod. destruct (carmichael m) as [[kp k0]|] eqn:Ec; [|discriminate].
      assert (M2 : 2 <= m).
      { unfold carmichael in Ec. destruct (prime_factor m) eqn:Ep; [|discriminate]. unfold prime_factor in Ep. destruct (Z.gtb_spec m 0) as [M|]; [|discriminate].
        unfold m in *. assert (0 < n) by nia. nia. }
      destruct (carmichael_ok m kp k0 ltac:(lia) Ec) as (K1 & K2 & K3). destruct (carmichael_bound m kp k0 M2 Ec) as (B1 & B2).
      assert (Fin : forall p, p = t_base t ^ value (t_exponent t) mod m -> p * t_coef t mod m = value_t t mod m).
      { intros p ->. rewrite value_t_eq, (Z.mul_comm (t_coef t)). apply Z.mul_mod_idemp_l. lia. }
      destruct (t_exponent t) as [k|k] eqn:Ee.
      - destruct (exp_mod (t_base t) k m) as [p|] eqn:Ep; [|discriminate]. intros [= <-]. split; auto. apply Fin. apply exp_mod_ok in Ep; auto. lia.
      - destruct (lt 3 fuel k (Int (Z.of_nat k0))) as [[|]|] eqn:El; try discriminate.
        destruct (add_int fuel (Exp k) (- Z.of_nat k0)) as [[|k']|] eqn:Ea; try discriminate.
        destruct (mod_int fuel k' kp) as [q|] eqn:Em; [|discriminate]. destruct (py_pow _ _ m) as [p|] eqn:Ep; [|discriminate]. intros [= <-]. split; auto. apply Fin.
        destruct t as [b c e dp w]. cbn [t_exponent t_base t_coef] in *. subst e. cbn [sized_t] in Hz. destruct Hz as (Z1 & Z2 & Z3).
        assert (Em' : n * e_denom x = m) by (unfold m; ring). rewrite Em' in Z2, Z3.
        change (wf_e k) in T3. change (0 <= value_e k) in T4. change (value (Exp k)) with (value_e k).
        assert (Big : Z.of_nat k0 <= value_e k).
        { destruct (try_eval (Exp k)) as [[a|]|] eqn:Ev.
          - eapply lt_small; eauto. lia.
          - lia.
          - lia. }
        assert (Vk : wf_e k' /\ value_e k' = value_e k - Z.of_nat k0).
        { pose proof Ea as Ea'. apply ctors in Ea'; [exact Ea'|exact T3]. }
        destruct Vk as (Wk & Vk).
        assert (Zk : sized_e kp k').
        { pose proof T3 as T3'. apply wf_e_eq in T3'. destruct T3' as (_ & Dk & _).
          apply add_int_terms in Ea; auto. destruct Ea as (k2 & [= <-] & Et & Ed). apply (sized_mono_e k' m); auto. apply sized_e_eq. rewrite Et, Ed. now apply sized_e_eq. }
        apply IH in Em; auto. rewrite Vk in Em. unfold py_pow in Ep. destruct (Z.ltb_spec (q + Z.of_nat k0) 0); [discriminate|]. injection Ep as <-.
        assert (X : value_e k = q + Z.of_nat k0 + kp * ((value_e k - Z.of_nat k0) / kp)).
        { rewrite Em. pose proof (Z.div_mod (value_e k - Z.of_nat k0) kp ltac:(lia)). lia. }
        assert (Q : 0 <= q) by (rewrite Em; apply Z.mod_pos_bound; lia).
        assert (0 <= (value_e k - Z.of_nat k0) / kp) by (apply Z.div_pos; lia).
        assert (D : (m | b ^ value_e k - b ^ (q + Z.of_nat k0))) by (rewrite X; apply K3; lia).
        destruct D as (w0 & D). replace (b ^ value_e k) with (b ^ (q + Z.of_nat k0) + w0 * m) by lia. rewrite Z.mod_add by lia. reflexivity. }
    destruct (omap (term_mod fuel m) (e_terms x)) as [rs|] eqn:Eo; [|discriminate]. apply omap_ok in Eo. cbv zeta.
    assert (S : 2 <= m /\ fold_right Z.add 0 rs mod m = sum (e_terms x) mod m).
    { assert (M2 : 2 <= m).
      { destruct (e_terms x) as [|t ts]; [congruence|]. inversion Eo; subst. eapply T; [left; reflexivity|eassumption]. }
      split; auto. clear - Eo T M2. induction Eo as [|t v ts rs H Eo IH]; [reflexivity|]. cbn [fold_right]. rewrite sum_cons.
      destruct (T t v (or_introl eq_refl) H) as (_ & ->). assert (IH' := IH (fun t v Hin Hv => T t v (or_intror Hin) Hv)). rewrite Z.add_mod_idemp_l by lia.
      rewrite <- Z.add_mod_idemp_r, IH', Z.add_mod_idemp_r by lia. reflexivity. }
    destruct S as (M2 & S). rewrite S, Z.add_mod_idemp_l by lia. rewrite V. unfold m. rewrite (Z.mul_comm (value_e x)), Z.mul_mod_distr_l by lia.
    rewrite (Z.mul_comm (e_denom x) (value_e x mod n)), Z.mod_mul, Z.div_mul by lia. change (0 =? 0) with true. cbv iota. rewrite Z.mod_mod by lia. congruence.
  Qed.
End ExpInt.
