(** * Formula integers: the constructors give normal forms; comparisons of small formulas *)
Require Import ZArith List Lia Bool Znumtheory Permutation.
From Verif Require Import M_Math M_ExpInt Spec_ExpInt P_Math P_ExpInt P_ExpInt2.
Import ListNotations.
Open Scope Z_scope.

Section Normal.
  Variable fl : floats.
  Hypothesis acc : accurate fl.
  Let sqrt_neg := acc_neg fl acc.

  (** [int_pow] of the base it returns returns that base *)
  Lemma int_pow_again b n k : int_pow (fl_sqrt fl) (fl_log fl) b = Some (n, k) -> 1 < k -> 2 <= b ->
    forall p, int_pow (fl_sqrt fl) (fl_log fl) n = Some p -> p = (n, 1).
  Proof.
    intros E Hk Hb p Ep. destruct (int_pow_base fl sqrt_neg _ _ _ E) as (_ & Hn & Enk & _).
    assert (N2 : 2 <= n).
    { destruct (Z.eq_dec n 0) as [->|]; [rewrite Z.pow_0_l in Enk by lia; lia|]. destruct (Z.eq_dec n 1) as [->|]; [rewrite Z.pow_1_l in Enk by lia; lia|]. lia. }
    assert (Least : forall m j, 2 <= m -> 0 <= j -> m ^ j = b -> n <= m).
    { unfold int_pow in E. destruct (fl_sqrt fl b) as [s|] eqn:Es; [|discriminate].
      apply (int_pow_loop_least _ b _ 2 n k) in E; [|intros m j Hm Hj <-; now apply acc|lia].
      destruct E as [(-> & -> & _)|(_ & E)]; [lia|]. intros m j Hm Hj Ej. destruct (Z_lt_le_dec m n) as [L|L]; auto. exfalso. apply (E m j); auto; lia. }
    unfold int_pow in Ep. destruct (fl_sqrt fl n) as [s|] eqn:Es; [|discriminate].
    assert (X : forall count m r j, 2 <= m -> int_pow_loop (fl_log fl) n m count = Some (r, j) -> r = n).
    { clear p Ep. induction count as [|count IH]; intros m r j Hm; cbn [int_pow_loop]; [congruence|]. destruct (fl_log fl n m) as [k'|]; [|discriminate].
      destruct ((0 <=? k') && (m ^ k' =? n)) eqn:T; [|apply IH; lia]. intros [= <- <-]. apply andb_true_iff in T. destruct T as (T1 & T2). apply Z.leb_le in T1. apply Z.eqb_eq in T2.
      assert (n <= m) by (apply (Least m (k' * k)); [auto|nia|rewrite Z.pow_mul_r by lia; now rewrite T2]).
      destruct (Z.eq_dec k' 0) as [->|]; [rewrite Z.pow_0_r in T2; lia|]. assert (m ^ 1 <= m ^ k') by (apply Z.pow_le_mono_r; lia). lia. }
    destruct p as [r j]. pose proof (X _ 2 r j (Z.le_refl 2) Ep) as ->. apply int_pow_loop_sound in Ep; [|lia]. destruct Ep as (E1 & E2). f_equal.
    apply (Z.pow_inj_r n); try lia.
  Qed.

  Lemma normal_e_eq (x : expint fl) : normal_e x <-> reduced x /\ eval_int (e_terms x) (e_const x) (e_denom x) = Some (e_tower x, e_sign x) /\ Forall normal_t (e_terms x).
  Proof.
    destruct x as [ts c d b n w s]. cbn [normal_e e_terms e_const e_denom e_sign e_tower].
    assert (X : (fix all (ts : list (term fl)) : Prop := match ts with [] => True | t :: ts => normal_t t /\ all ts end) ts <-> Forall normal_t ts).
    { clear. induction ts as [|t ts IH]; split; intros H; auto.
      - destruct H as (H1 & H2). constructor; auto. now apply IH.
      - inversion H; subst. split; auto. now apply IH. }
    rewrite X. reflexivity.
  Qed.

  Lemma normal_t_eq (t : term fl) : normal_t t <-> (forall p, int_pow (fl_sqrt fl) (fl_log fl) (t_base t) = Some p -> p = (t_base t, 1)) /\
    t_coef t mod t_base t <> 0 /\ eval_term (t_base t) (t_coef t) (t_exponent t) = Some (t_tower t) /\ normal (t_exponent t).
  Proof. destruct t. reflexivity. Qed.

  (** a term with a base and coefficient in normal form is built as it is *)
  Lemma mk_term_same fuel b c e t : (forall p, int_pow (fl_sqrt fl) (fl_log fl) b = Some p -> p = (b, 1)) -> c mod b <> 0 ->
    mk_term (fl := fl) fuel b c e = Some t -> t_base t = b /\ t_coef t = c /\ t_exponent t = e /\ eval_term b c e = Some (t_tower t).
  Proof.
    intros Hb Hc. destruct fuel as [|fuel]; [discriminate|]. rewrite mk_term_S. destruct (c =? 0); [discriminate|].
    destruct (int_pow _ _ b) as [p|] eqn:Ep; [|discriminate]. rewrite (Hb p eq_refl). change (1 <? 1) with false. cbv iota zeta.
    destruct (Z.to_nat (Z.log2 (Z.abs c)) + 2)%nat as [|n]; [discriminate|]. cbn [norm_loop].
    destruct (b =? 0); [discriminate|]. destruct (Z.eqb_spec (c mod b) 0); [contradiction|]. destruct (eval_term b c e) as [w|]; [|discriminate]. intros [= <-]. repeat split.
  Qed.

  Lemma fold_gcd_scale (ts us : list (term fl)) m : 0 <= m -> Forall2 (fun t u => t_coef u * m = t_coef t) ts us ->
    forall g, fold_left (fun g t => Z.gcd g (t_coef t)) ts (g * m) = fold_left (fun g t => Z.gcd g (t_coef t)) us g * m.
  Proof.
    intros Hm H. induction H as [|t u ts us Ht H IH]; intros g; [reflexivity|]. cbn [fold_left]. rewrite <- IH. f_equal.
    rewrite <- Ht, Z.gcd_mul_mono_r. f_equal. lia.
  Qed.
  Lemma fold_gcd_one (ts : list (term fl)) : fold_left (fun g t => Z.gcd g (t_coef t)) ts 1 = 1.
  Proof. induction ts as [|t ts IH]; [reflexivity|]. cbn [fold_left]. rewrite Z.gcd_1_l. exact IH. Qed.

  (** the constructors give normal forms *)
  Lemma normal_forms fuel :
    (forall b c (e : num fl) t, wf e -> 0 <= value e -> normal e -> mk_term fuel b c e = Some t -> normal_t t) /\
    (forall ts c d (x : expint fl), Forall wf_t ts -> Forall normal_t ts -> mk_expint fuel ts c d = Some x -> normal_e x) /\
    (forall (x y : num fl) k, wf x -> normal x -> mul_int fuel x k = Some y -> normal y) /\
    (forall (x y : num fl) k, wf x -> normal x -> add_int fuel x k = Some y -> normal y).
  Proof.
    induction fuel as [|fuel (IT & II & IM & IA)]; [repeat split; intros; discriminate|]. split; [|split; [|split]].
    - intros b c e t We Hv He Et. pose proof (constructors fl sqrt_neg (S fuel)) as (CT & _). destruct (CT _ _ _ _ We Hv Et) as (Wt & _). clear CT. revert Et.
      rewrite mk_term_S. destruct (Z.eqb_spec c 0) as [|Hc]; [discriminate|].
      destruct (int_pow _ _ b) as [[n k]|] eqn:Ep; [|discriminate]. destruct (int_pow_base fl sqrt_neg _ _ _ Ep) as (Hb & Hn & Enk & Hk).
      pose proof (constructors fl sqrt_neg fuel) as (_ & _ & CM & CA). set (b' := if 1 <? k then n else b).
      assert (X : forall e1, (if 1 <? k then mul_int fuel e k else Some e) = Some e1 -> wf e1 /\ 0 <= value e1 /\ normal e1).
      { intros e1. destruct (Z.ltb_spec 1 k); [|intros [= <-]; auto]. intros E. split; [apply CM in E; tauto|]. split; [apply CM in E; auto; destruct E as (_ & ->); nia|]. eapply IM; eauto. }
      destruct (if 1 <? k then mul_int fuel e k else Some e) as [e1|]; [|discriminate]. destruct (X e1 eq_refl) as (X1 & X2 & X3). cbv zeta. fold b'.
      destruct (norm_loop (fun e => add_int fuel e 1) (Z.to_nat (Z.log2 (Z.abs c)) + 2) b' c e1) as [[c' e']|] eqn:En; [|discriminate].
      destruct (eval_term b' c' e') as [w|] eqn:Ew; [|discriminate]. intros [= <-]. apply normal_t_eq. cbn [t_base t_coef t_exponent t_tower].
      apply wf_t_eq in Wt. cbn [t_base] in Wt. destruct Wt as (B2 & _).
      assert (N : forall g c0 (e0 : num fl) c1 e1, wf e0 -> 0 <= value e0 -> normal e0 -> norm_loop (fun e => add_int fuel e 1) g b' c0 e0 = Some (c1, e1) -> normal e1 /\ c1 mod b' <> 0).
      { induction g as [|g IHg]; intros c0 e0 c1 e2 W0 V0 N0; [discriminate|]. cbn [norm_loop]. destruct (b' =? 0); [discriminate|].
        destruct (Z.eqb_spec (c0 mod b') 0) as [E|E]; [|intros [= <- <-]; auto].
        destruct (add_int fuel e0 1) as [e3|] eqn:E1; [|discriminate]. pose proof (IA _ _ _ W0 N0 E1) as N3. apply CA in E1; auto. destruct E1 as (W3 & V3). apply IHg; auto. lia. }
      apply N in En; auto. destruct En as (N1 & N2). split; [|split; [auto|split; auto]].
      unfold b' in *. destruct (Z.ltb_spec 1 k) as [K|K].
      + assert (2 <= b) by (rewrite <- Enk; apply (Z.le_trans _ (n ^ 1)); [lia|apply Z.pow_le_mono_r; lia]).
        eapply int_pow_again; eauto.
      + intros p Hp. rewrite Ep in Hp. injection Hp as <-. destruct (Z.eq_dec k 1) as [->|]; [rewrite Z.pow_1_r in Enk; now subst|].
        assert (k = 0) as -> by lia. rewrite Z.pow_0_r in Enk. lia.
    - intros ts c d x Wts Nts Ex. revert Ex. rewrite mk_expint_S. destruct ts as [|t0 ts0] eqn:Ets; [discriminate|]. rewrite <- Ets in *. assert (Hne : ts <> []) by congruence. clear Ets ts0.
      rewrite gcd_eq. cbv zeta. rewrite common_loop_ok. set (g := Z.abs (Z.gcd c d) * Z.sgn d).
      set (mm := if g =? 1 then Some 1 else Some (fold_left (fun g t => Z.gcd g (t_coef t)) ts g)).
      assert (Hm : exists m, mm = Some m /\ (g = 1 /\ m = 1 \/ g <> 1 /\ m = fold_left (fun g t => Z.gcd g (t_coef t)) ts g)).
      { unfold mm. destruct (Z.eqb_spec g 1); eauto. }
      destruct Hm as (m & Em & Hm). rewrite Em. clear mm Em.
      assert (M0 : 0 <= m). { destruct Hm as [(_ & ->)|(_ & ->)]; [lia|]. now apply fold_gcd. }
      set (ts1 := if m =? 1 then Some ts else _). destruct ts1 as [ts'|] eqn:Et; [|discriminate]. unfold ts1 in Et. clear ts1.
      set (c' := if m =? 1 then c else c / m) in *. set (d' := if m =? 1 then d else d / m) in *.
      destruct (Z.ltb_spec 0 d') as [Dp|]; [|discriminate]. destruct (MAX_DEPTH <? _); [discriminate|].
      destruct (eval_int ts' c' d') as [[w sg]|] eqn:Ee; [|discriminate]. destruct (forallb _ ts); [|discriminate]. intros [= <-].
      apply normal_e_eq. cbn [e_terms e_const e_denom e_tower e_sign]. unfold reduced. cbn [e_terms e_const e_denom].
      unfold c', d' in *. destruct (Z.eqb_spec m 1) as [M1|M1].
      + injection Et as <-. split; [|auto]. assert (G : g = Z.gcd c d) by (unfold g; rewrite Z.sgn_pos, Z.mul_1_r by lia; apply Z.abs_eq, Z.gcd_nonneg).
        rewrite <- G. destruct Hm as [(-> & _)|(_ & Hm)]; [apply fold_gcd_one|congruence].
      + destruct (Z.eqb_spec m 0) as [|M2]; [discriminate|]. destruct Hm as [(_ & ?)|(_ & Hm)]; [lia|].
        destruct (fold_gcd fl ts g Hne) as (_ & F2 & F3). rewrite <- Hm in F2, F3.
        assert (Dd : 0 < d). { destruct (Z_lt_le_dec 0 d); auto. assert (d / m <= 0) by (apply Z.div_le_upper_bound; lia). lia. }
        assert (G : g = Z.gcd c d) by (unfold g; rewrite Z.sgn_pos, Z.mul_1_r by lia; apply Z.abs_eq, Z.gcd_nonneg).
        assert (D : forall a, (m | a) -> a / m * m = a) by (intros a (q & ->); now rewrite Z.div_mul).
        assert (Dc : c / m * m = c) by (apply D; eapply Z.divide_trans; [exact F2|rewrite G; apply Z.gcd_divide_l]).
        assert (Dd' : d / m * m = d) by (apply D; eapply Z.divide_trans; [exact F2|rewrite G; apply Z.gcd_divide_r]).
        apply omap_ok in Et.
        assert (S : Forall2 (fun t u => t_coef u * m = t_coef t) ts ts' /\ Forall normal_t ts').
        { clear - Et Wts Nts M0 M2 F3 D. induction Et as [|t u ts ts' H Et IH]; [split; constructor|].
          inversion Wts as [|? ? W1 W2]; subst. inversion Nts as [|? ? N1 N2]; subst. destruct IH as (I1 & I2); auto; [intros; apply F3; simpl; auto|].
          destruct (t_coef t mod m =? 0); [|discriminate]. apply normal_t_eq in N1. destruct N1 as (A1 & A2 & A3 & A4). apply wf_t_eq in W1. destruct W1 as (B1 & _).
          assert (Dt : t_coef t / m * m = t_coef t) by (apply D, F3; simpl; auto).
          assert (Hnd : (t_coef t / m) mod t_base t <> 0).
          { intros E. apply A2. apply Z.mod_divide in E; [|lia]. apply Z.mod_divide; [lia|]. rewrite <- Dt. now apply Z.divide_mul_l. }
          apply mk_term_same in H; auto. destruct H as (E1 & E2 & E3 & E4). split; constructor; auto; [now rewrite E2|].
          apply normal_t_eq. rewrite E1, E2, E3. auto. }
        destruct S as (S1 & S2). split; [|auto].
        assert (Gm : Z.gcd c d = Z.gcd (c / m) (d / m) * m) by (rewrite <- Z.gcd_mul_mono_r_nonneg by lia; now rewrite Dc, Dd').
        assert (X : fold_left (fun g t => Z.gcd g (t_coef t)) ts' (Z.gcd (c / m) (d / m)) * m = m).
        { rewrite <- (fold_gcd_scale ts ts' m M0 S1). rewrite <- Gm, <- G. symmetry. exact Hm. }
        apply (Z.mul_reg_r _ _ m); auto. lia.
    - intros x y k Wx Nx. rewrite mul_int_S. destruct x as [a|x]; [intros [= <-]; exact I|]. destruct (k =? 0); [intros [= <-]; exact I|].
      destruct (omap _ (e_terms x)) as [ts|] eqn:Et; [|discriminate]. apply omap_ok in Et. destruct (mk_expint fuel ts _ _) as [z|] eqn:Ez; [|discriminate]. intros [= <-].
      change (wf_e x) in Wx. change (normal_e x) in Nx. apply wf_e_eq in Wx. apply normal_e_eq in Nx. destruct Wx as (_ & _ & _ & Wx & _). destruct Nx as (_ & _ & Nx).
      pose proof (constructors fl sqrt_neg fuel) as (CT & _).
      assert (S : Forall wf_t ts /\ Forall normal_t ts).
      { clear - Et Wx Nx CT IT. induction Et as [|t u l ts H Et IH]; [split; constructor|]. inversion Wx as [|? ? W1 W2]; subst. inversion Nx as [|? ? N1 N2]; subst.
        apply wf_t_eq in W1. destruct W1 as (_ & _ & A1 & A2 & _). apply normal_t_eq in N1. destruct N1 as (_ & _ & _ & A3). destruct IH as (I1 & I2); auto.
        split; constructor; auto; [apply CT in H; tauto|eapply IT; eauto]. }
      change (normal_e z). eapply II; [| |exact Ez]; tauto.
    - intros x y k Wx Nx. rewrite add_int_S. destruct x as [a|x]; [intros [= <-]; exact I|]. destruct (mk_expint fuel _ _ _) as [z|] eqn:Ez; [|discriminate]. intros [= <-].
      change (wf_e x) in Wx. change (normal_e x) in Nx. apply wf_e_eq in Wx. apply normal_e_eq in Nx. change (normal_e z). eapply II; [| |exact Ez]; tauto.
  Qed.

  (** ** The operations give normal forms *)
  Let ctors := constructors fl sqrt_neg.
  Definition good (x : num fl) : Prop := wf x /\ normal x.
  Definition good_t (t : term fl) : Prop := wf_t t /\ normal_t t.

  Lemma good_exp (x : expint fl) : good (Exp x) -> Forall good_t (e_terms x).
  Proof.
    intros (W & N). change (wf_e x) in W. change (normal_e x) in N. apply wf_e_eq in W. apply normal_e_eq in N. apply Forall_forall. intros t Ht.
    destruct W as (_ & _ & _ & W & _). destruct N as (_ & _ & N). rewrite Forall_forall in W, N. split; auto.
  Qed.
  Lemma good_parts t : good_t t -> good (t_exponent t) /\ 0 <= value (t_exponent t).
  Proof. intros (W & N). apply wf_t_eq in W. apply normal_t_eq in N. unfold good. tauto. Qed.
  Lemma good_split ts : Forall good_t ts <-> Forall wf_t ts /\ Forall normal_t ts.
  Proof. unfold good_t. rewrite !Forall_forall. firstorder. Qed.

  Lemma mk_term_good fuel b c (e : num fl) t : good e -> 0 <= value e -> mk_term fuel b c e = Some t -> good_t t.
  Proof. intros (W & N) V E. split; [apply ctors in E; tauto|]. destruct (normal_forms fuel) as (X & _). eapply X; eauto. Qed.
  Lemma mul_terms_good fuel (ts us : list (term fl)) n : Forall good_t ts -> omap (fun t => mul_term_int fuel t n) ts = Some us -> Forall good_t us.
  Proof.
    intros H E. apply omap_ok in E. induction E as [|t u ts us Hu E IH]; [constructor|]. inversion H as [|? ? H1 H2]; subst. constructor; auto.
    unfold mul_term_int in Hu. destruct (n =? 0); [discriminate|]. apply good_parts in H1. eapply mk_term_good; [| |exact Hu]; tauto.
  Qed.
  Lemma merge_good fuel (ts : list (term fl)) : forall p r, match p with None => True | Some (b, c, e) => good e /\ 0 <= value e end ->
    Forall good_t ts -> merge_terms fuel p ts = Some r -> Forall good_t r.
  Proof.
    assert (Fl : forall p r, match p with None => True | Some (b, c, e) => good e /\ 0 <= value e end -> (match p with
                 | Some (b, c, e) => if c =? 0 then Some [] else match mk_term fuel b c e with Some t => Some [t] | None => None end
                 | None => Some []
                 end) = Some r -> Forall good_t r).
    { intros [[[b c] e]|] r Hp; [|intros [= <-]; constructor]. destruct (c =? 0); [intros [= <-]; constructor|].
      destruct (mk_term fuel b c e) as [t|] eqn:E; [|discriminate]. intros [= <-]. constructor; auto. eapply mk_term_good; [| |exact E]; tauto. }
    induction ts as [|t ts IH]; intros p r Hp Hts; cbn [merge_terms]; [now apply Fl|].
    inversion Hts as [|? ? Ht Hts']; subst. pose proof (good_parts t Ht) as Hg.
    assert (New : forall r, match (match p with
                 | Some (b, c, e) => if c =? 0 then Some [] else match mk_term fuel b c e with Some t => Some [t] | None => None end
                 | None => Some []
                 end), merge_terms fuel (Some (t_base t, t_coef t, t_exponent t)) ts with
        | Some l, Some r => Some (l ++ r)
        | _, _ => None
        end = Some r -> Forall good_t r).
    { intros r0. match goal with |- context [match ?f with Some _ => _ | None => None end] => destruct f as [l|] eqn:El; [|discriminate] end.
      apply Fl in El; auto. destruct (merge_terms fuel (Some _) ts) as [q|] eqn:Eq; [|discriminate]. intros [= <-].
      apply IH in Eq; auto. apply Forall_app; auto. }
    destruct p as [[[b c] e]|]; [|apply New]. destruct (struct_eq (t_exponent t) e) eqn:Es; [|apply New].
    destruct (t_base t =? b); [|discriminate]. intros E. apply IH in E; auto.
  Qed.
  Lemma normalize_good fuel (ts r : list (term fl)) : Forall good_t ts -> normalize_terms fuel ts = Some r -> Forall good_t r.
  Proof.
    intros Hw. unfold normalize_terms. destruct ts as [|t0 ts0] eqn:Et; [discriminate|]. rewrite <- Et in *. clear Et ts0.
    destruct (forallb _ ts); [|discriminate]. intros E. apply merge_good in E; auto. eapply Permutation_Forall; [symmetry; apply sort_perm|exact Hw].
  Qed.
  Lemma mk_normal fuel (ts : list (term fl)) c d (x : expint fl) : Forall good_t ts -> mk_expint fuel ts c d = Some x -> normal_e x.
  Proof. intros H E. apply good_split in H. destruct (normal_forms fuel) as (_ & X & _). eapply X; [| |exact E]; tauto. Qed.

  Lemma exp_int_normal fuel b (e y : num fl) : good e -> 0 <= value e -> exp_int fuel b e = Some y -> normal y.
  Proof.
    intros He Hv. unfold exp_int.
    assert (X : match mk_term fuel b 1 e with
           | Some t => match mk_expint fuel [t] 0 1 with Some x => Some (Exp x) | None => None end
           | None => None
           end = Some y -> normal y).
    { destruct (mk_term fuel b 1 e) as [t|] eqn:Et; [|discriminate]. destruct (mk_expint fuel [t] 0 1) as [x|] eqn:Ex; [|discriminate]. intros [= <-].
      apply mk_normal in Ex; auto. constructor; auto. eapply mk_term_good; eauto. }
    destruct e as [[|z|z]|k]; auto. intros [= <-]. exact I.
  Qed.
  Lemma add_int_normal fuel (x y : num fl) k : good x -> add_int fuel x k = Some y -> normal y.
  Proof. intros (W & N) E. destruct (normal_forms fuel) as (_ & _ & _ & X). eapply X; eauto. Qed.
  Lemma mul_int_normal fuel (x y : num fl) k : good x -> mul_int fuel x k = Some y -> normal y.
  Proof. intros (W & N) E. destruct (normal_forms fuel) as (_ & _ & X & _). eapply X; eauto. Qed.
  Lemma wrap_normal fuel (ts : list (term fl)) c d y : Forall good_t ts -> wrap (mk_expint fuel ts c d) = Some y -> normal y.
  Proof. intros H. unfold wrap. destruct (mk_expint _ _ _ _) as [x|] eqn:E; [|discriminate]. intros [= <-]. apply mk_normal in E; auto. Qed.

  Lemma add_normal fuel (x y z : num fl) : good x -> good y -> add fuel x y = Some z -> normal z.
  Proof.
    intros Hx Hy. destruct x as [a|x], y as [b|y]; cbn [add]; [intros [= <-]; exact I|apply add_int_normal; auto..|].
    apply good_exp in Hx, Hy. unfold add_exp. destruct (lcm _ _) as [d|]; [|discriminate]. cbv zeta.
    destruct (omap _ (e_terms x)) as [ts|] eqn:Et; [|discriminate]. destruct (omap _ (e_terms y)) as [us|] eqn:Eu; [|discriminate].
    apply mul_terms_good in Et; auto. apply mul_terms_good in Eu; auto. destruct (normalize_terms fuel (ts ++ us)) as [r|] eqn:En; [|discriminate].
    apply normalize_good in En; [|apply Forall_app; auto]. destruct r; [destruct (d =? 0); [discriminate|]; intros [= <-]; exact I|]. now apply wrap_normal.
  Qed.

  Lemma mul_term_good fuel (t u v : term fl) : good_t t -> good_t u -> mul_term fuel t u = Some v -> good_t v.
  Proof.
    intros Ht Hu. apply good_parts in Ht, Hu. unfold mul_term. destruct (t_base t =? t_base u); [|discriminate]. destruct (add fuel _ _) as [e|] eqn:Ee; [|discriminate].
    assert (N : normal e) by (eapply add_normal; [| |exact Ee]; tauto). apply (add_ok' fl sqrt_neg) in Ee; [|apply Ht|apply Hu]. apply mk_term_good; [split; tauto|lia].
  Qed.

  Lemma mul_normal fuel (x y z : num fl) : good x -> good y -> mul fuel x y = Some z -> normal z.
  Proof.
    intros Hx Hy. destruct x as [a|x]; cbn [mul].
    - destruct y as [b|y]; [intros [= <-]; exact I|]. apply mul_int_normal; auto.
    - destruct (try_simplify y) as [y'|] eqn:Ey; [|discriminate].
      assert (Hy' : good y') by (unfold try_simplify in Ey; destruct (try_eval y) as [[v|]|]; try discriminate; injection Ey as <-; auto; split; exact I).
      destruct y' as [b|y']; [apply mul_int_normal; auto|]. apply good_exp in Hx, Hy'. unfold mul_exp. destruct (e_base x =? e_base y'); [|discriminate]. cbv zeta.
      match goal with |- context [oapp ?a ?b] => destruct (oapp a b) as [ts|] eqn:Eo; [|discriminate] end.
      apply oapp_ok in Eo. destruct Eo as (a & b & Ea & Eb & ->).
      assert (Ga : Forall good_t a).
      { revert a Ea. clear Eb. induction (e_terms x) as [|t ts IH]; intros a; cbn [map fold_right]; [intros [= <-]; constructor|].
        intros E. inversion Hx as [|? ? H1 H2]; subst. apply oapp_ok in E. destruct E as (p & q & Ep & Eq & ->). apply oapp_ok in Ep. destruct Ep as (p1 & p2 & E1 & E2 & ->).
        apply Forall_app. split; [apply Forall_app; split|now apply IH].
        - destruct (e_const y' =? 0); [injection E1 as <-; constructor|]. eapply mul_terms_good; [|exact E1]. auto.
        - apply omap_ok in E2. clear - E2 H1 Hy' acc sqrt_neg ctors. induction E2 as [|u v us vs Hv E2 IH2]; [constructor|]. inversion Hy' as [|? ? G1 G2]; subst. constructor; auto. now apply (mul_term_good fuel t u). }
      assert (Gb : Forall good_t b).
      { destruct (e_const x =? 0); [injection Eb as <-; constructor|]. eapply mul_terms_good; [|exact Eb]; auto. }
      destruct (normalize_terms fuel (a ++ b)) as [r|] eqn:En; [|discriminate]. apply normalize_good in En; [|apply Forall_app; auto].
      destruct r; [intros [= <-]; exact I|]. now apply wrap_normal.
  Qed.

  Lemma neg_normal fuel (x y : num fl) : good x -> neg fuel x = Some y -> normal y.
  Proof. intros Hx. destruct x as [a|x]; [intros [= <-]; exact I|]. apply mul_int_normal; auto. Qed.
  Lemma sub_normal fuel (x y z : num fl) : good x -> good y -> sub fuel x y = Some z -> normal z.
  Proof.
    intros Hx Hy. assert (N : forall y', neg fuel y = Some y' -> good y').
    { intros y' E. split; [apply (neg_ok fl sqrt_neg) in E; [tauto|apply Hy]|eapply neg_normal; eauto]. }
    destruct x as [a|x]; [destruct y as [b|y]; [intros [= <-]; exact I|]|]; cbn [sub]; (destruct (neg fuel _) as [y'|]; [|discriminate]); apply add_normal; auto.
  Qed.
  Lemma truediv_normal fuel (x : expint fl) (y z : num fl) : good (Exp x) -> truediv fuel x y = Some z -> normal z.
  Proof.
    intros Hx. apply good_exp in Hx. unfold truediv. destruct (try_eval y) as [[k|]|]; try discriminate. destruct (k =? 0); [discriminate|]. now apply wrap_normal.
  Qed.

  (** ** Comparisons of formulas that are evaluated exactly *)

  (** exact evaluation: every term is evaluated *)
  Lemma small_terms (ts : list (term fl)) c d w sg : Forall wf_t ts -> eval_int ts c d = Some (w, sg) -> fst w = O ->
    forall t, In t ts -> exists v, try_eval_term t = Some (Some v).
  Proof.
    intros Hw E H0 t Hin. destruct (try_eval_term t) as [[v|]|] eqn:Et; [eauto| |].
    - exfalso. (* a term with a positive height makes the height positive *)
      unfold eval_int in E.
      match type of E with match ?f ts with _ => _ end = _ => set (all := f) in E end.
      assert (X : match all ts with Some (Some _) => False | Some None => True | None => True end).
      { clear - Hin Et. induction ts as [|u ts IH]; [destruct Hin|]. cbn. destruct Hin as [->|Hin].
        - rewrite Et. fold all. destruct (all ts) as [[vs|]|]; exact I.
        - fold all. specialize (IH Hin). destruct (try_eval_term u) as [[[|v|v]|]|]; destruct (all ts) as [[vs|]|]; auto. }
      destruct (all ts) as [[vs|]|]; [contradiction| |discriminate].
      set (pos := tower_max (map t_tower (filter (fun t => 0 <? t_sign t) ts))) in E.
      set (neg := tower_max (map t_tower (filter (fun t => t_sign t <? 0) ts))) in E.
      destruct (tower_eq fl pos neg); [discriminate|]. cbv zeta in E.
      assert (Hh : (0 < fst (t_tower t))%nat) by now apply try_eval_height.
      assert (Hs : t_sign t <> 0).
      { rewrite Forall_forall in Hw. specialize (Hw t Hin). apply wf_t_eq in Hw. unfold t_sign. intros Hz. apply (proj1 (Z.sgn_null_iff _)) in Hz. tauto. }
      set (w0 := if tower_gt neg pos then neg else pos) in E.
      assert (H : (0 < fst w0)%nat).
      { assert (Y : (0 < fst pos)%nat \/ (0 < fst neg)%nat).
        { destruct (Z.ltb_spec 0 (t_sign t)) as [S|S]; [left|right].
          - eapply Nat.lt_le_trans; [exact Hh|]. apply max_height, in_map, filter_In. split; auto. now apply Z.ltb_lt.
          - eapply Nat.lt_le_trans; [exact Hh|]. apply max_height, in_map, filter_In. split; auto. apply Z.ltb_lt. lia. }
        unfold w0, tower_gt, tower_cmp. destruct (Nat.compare_spec (fst neg) (fst pos)); [|lia|lia].
        destruct (top_cmp fl (snd neg) (snd pos)); lia. }
      assert (Hw0 : w0 = w -> False) by (intros Hq; rewrite Hq in H; rewrite H0 in H; lia).
      destruct (d =? 1); [injection E as E _; auto|].
      destruct (fst w0) as [|[|h]] eqn:Ef; [discriminate| |injection E as E _; auto].
      destruct (fl_denom fl (snd w0) d); [|discriminate]. injection E as E _. rewrite <- E in H0. discriminate.
    - exfalso. unfold eval_int in E. match type of E with match ?f ts with _ => _ end = _ => set (all := f) in E end.
      assert (X : all ts = None).
      { clear - Hin Et. induction ts as [|u ts IH]; [destruct Hin|]. cbn. destruct Hin as [->|Hin].
        - rewrite Et. reflexivity.
        - fold all. rewrite (IH Hin). destruct (try_eval_term u); reflexivity. }
      rewrite X in E. discriminate.
  Qed.

  (** a term evaluated exactly has an exponent below the threshold *)
  Lemma small_term (t : term fl) v : wf_t t -> normal_t t -> try_eval_term t = Some (Some v) ->
    exists e, try_eval (t_exponent t) = Some (Some e) /\ 0 < e < EXP_THRESHOLD.
  Proof.
    intros W N. apply wf_t_eq in W. destruct W as (B & C & We & Ve & _). apply normal_t_eq in N. destruct N as (_ & _ & E & _).
    unfold try_eval_term, try_eval_attr. destruct (top_ge0 _); [|discriminate]. unfold eval_term in E. pose proof (fun z => try_eval_ok _ (t_exponent t) z We) as X.
    destruct (try_eval (t_exponent t)) as [[e|]|] eqn:Ee; [| |discriminate].
    - specialize (X e eq_refl). destruct e as [|e|e].
      + destruct (t_exponent t) as [a|k]; [discriminate|]. destruct (top_ge0 _); [|discriminate]. injection E as <-. simpl. discriminate.
      + destruct (Z.pos e <? 0); [discriminate|]. destruct (Z.ltb_spec (Z.pos e) EXP_THRESHOLD) as [L|L].
        * intros _. exists (Z.pos e). split; auto. lia.
        * destruct (fl_term fl _ _ _); [|discriminate]. injection E as <-. discriminate.
      + lia.
    - destruct (t_exponent t) as [a|k]; [discriminate|]. destruct (top_ge0 _); [|discriminate]. injection E as <-. simpl. discriminate.
  Qed.

  Lemma neg_small fuel (x : expint fl) a y : good (Exp x) -> try_eval (Exp x) = Some (Some a) -> neg fuel (Exp x) = Some y ->
    exists z, y = Exp z /\ try_eval (Exp z) = Some (Some (- a)).
  Proof.
    intros Hx Ea En. pose proof (neg_ok fl sqrt_neg fuel (Exp x) y (proj1 Hx) En) as (Wy & Vy). pose proof (neg_normal fuel (Exp x) y Hx En) as Ny.
    pose proof (try_eval_ok _ (Exp x) a (proj1 Hx) Ea) as Va.
    cbn [neg] in En. destruct fuel as [|fuel]; [discriminate|]. rewrite mul_int_S in En. change (-1 =? 0) with false in En. cbv iota in En.
    destruct (omap _ (e_terms x)) as [ts|] eqn:Et; [|discriminate]. destruct (mk_expint fuel ts (e_const x * -1) (e_denom x)) as [z|] eqn:Ez; [|discriminate]. injection En as <-.
    exists z. split; auto. destruct Hx as (Wx & Nx). change (wf_e x) in Wx. change (normal_e x) in Nx. change (wf_e z) in Wy. change (normal_e z) in Ny.
    apply wf_e_eq in Wx. destruct Wx as (Xne & Xd & _ & Wt & At). apply normal_e_eq in Nx. destruct Nx as (Rx & Ex & Nt).
    assert (Hh : fst (e_tower x) = O).
    { cbn [try_eval] in Ea. unfold try_eval_attr in Ea. destruct (top_ge0 _); [|discriminate]. destruct (e_tower x) as [[|h] [q|q]]; try discriminate; reflexivity. }
    pose proof (small_terms _ _ _ _ _ Wt Ex Hh) as Sm.
    (* the terms of the negative are the negated terms, evaluated exactly *)
    assert (T : Forall2 (fun t u => t_coef u = t_coef t * -1 /\ t_sign u = - t_sign t /\ exists v, try_eval_term u = Some (Some v)) (e_terms x) ts).
    { apply omap_ok in Et. clear - Et Wt Nt Sm. induction Et as [|t u l ts Hu Et IH]; [constructor|].
      inversion Wt as [|? ? W1 W2]; subst. inversion Nt as [|? ? N1 N2]; subst. constructor; [|apply IH; auto; intros; apply Sm; simpl; auto].
      destruct (Sm t (or_introl eq_refl)) as (v & Ev). destruct (small_term t v W1 N1 Ev) as (e & Ee & Le). apply normal_t_eq in N1. destruct N1 as (A1 & A2 & A3 & A4). apply wf_t_eq in W1. destruct W1 as (B1 & B2 & _).
      apply mk_term_same in Hu; auto.
      2:{ intros E. apply A2. apply Z.mod_divide in E; [|lia]. apply Z.mod_divide; [lia|]. rewrite <- (Z.mul_1_r (t_coef t)). replace (t_coef t * 1) with (- (t_coef t * -1)) by ring. now apply Z.divide_opp_r. }
      destruct Hu as (E1 & E2 & E3 & E4). split; auto. split; [unfold t_sign; rewrite E2; lia|].
      unfold eval_term in E4. rewrite Ee in E4. destruct e as [|e|e]; try lia. destruct (Z.ltb_spec (Z.pos e) 0); [lia|]. destruct (Z.ltb_spec (Z.pos e) EXP_THRESHOLD); [|lia]. injection E4 as E4.
      unfold try_eval_term, try_eval_attr. rewrite <- E4. cbn [snd]. unfold top_ge0. destruct (Z.leb_spec 0 (Z.abs (t_coef t * -1 * Z.pow_pos (t_base t) e))); [eexists; reflexivity|lia]. }
    (* so the negative is evaluated exactly *)
    assert (Tz : e_terms z = ts).
    { destruct fuel as [|fuel']; [discriminate|]. rewrite mk_expint_S in Ez. destruct ts as [|t0 ts0] eqn:Ets; [discriminate|]. rewrite <- Ets in *.
      rewrite gcd_eq in Ez. cbv zeta in Ez. rewrite common_loop_ok in Ez. unfold reduced in Rx.
      assert (G : Z.abs (Z.gcd (e_const x * -1) (e_denom x)) * Z.sgn (e_denom x) = Z.gcd (e_const x) (e_denom x)).
      { rewrite Z.sgn_pos, Z.mul_1_r by lia. rewrite Z.abs_eq by apply Z.gcd_nonneg. replace (e_const x * -1) with (- e_const x) by ring. apply Z.gcd_opp_l. }
      rewrite G in Ez.
      assert (F : forall l1 l2, Forall2 (fun t u : term fl => t_coef u = t_coef t * -1 /\ t_sign u = - t_sign t /\ exists v, try_eval_term u = Some (Some v)) l1 l2 ->
        forall g, fold_left (fun g t => Z.gcd g (t_coef t)) l2 g = fold_left (fun g t => Z.gcd g (t_coef t)) l1 g).
      { intros l1 l2 H. induction H as [|t u l1 l2 (Hc & _) H IH]; intros g; [reflexivity|]. cbn [fold_left]. rewrite Hc. replace (t_coef t * -1) with (- t_coef t) by ring. rewrite Z.gcd_opp_r. apply IH. }
      rewrite (F _ _ T), Rx in Ez. assert (X : (if Z.gcd (e_const x) (e_denom x) =? 1 then Some 1 else Some 1) = Some 1) by (destruct (_ =? _); reflexivity). rewrite X in Ez.
      change (1 =? 1) with true in Ez. cbv iota in Ez. revert Ez. destruct (0 <? e_denom x); [|discriminate]. destruct (MAX_DEPTH <? _); [discriminate|].
      destruct (eval_int ts (e_const x * -1) (e_denom x)) as [[w sg]|]; [|discriminate]. destruct (forallb (fun t : term fl => t_base t =? t_base t0) ts); [|discriminate]. intros [= <-]. reflexivity. }
    pose proof Wy as Wy'. apply wf_e_eq in Wy'. destruct Wy' as (_ & Zd & _ & Wtz & Atz). apply normal_e_eq in Ny. destruct Ny as (_ & Ez' & _).
    assert (Hz : exists q, e_tower z = (O, TI q)).
    { rewrite Tz in *. unfold eval_int in Ez'. match type of Ez' with match ?f ts with _ => _ end = _ => set (all := f) in Ez' end.
      assert (X : exists vs, all ts = Some (Some vs)).
      { clear - T Wtz. revert Wtz. induction T as [|t u l ts (_ & _ & v & Hv) T IH]; intros W; [exists []; reflexivity|]. inversion W as [|? ? W1 W2]; subst. destruct (IH W2) as (vs & E).
        cbn. fold all. rewrite Hv, E. pose proof (try_eval_term_ok _ u v W1 Hv) as Vv.
        assert (v <> 0). { rewrite Vv, value_t_eq. apply wf_t_eq in W1. destruct W1 as (A1 & A2 & _ & A3 & _). apply Z.neq_mul_0. split; auto. apply Z.pow_nonzero; lia. }
        destruct v; [contradiction|eexists; reflexivity..]. }
      destruct X as (vs & X). rewrite X in Ez'. injection Ez' as E1 _. eexists. symmetry. exact E1. }
    destruct Hz as (q & Hz). rewrite Hz in Atz. cbn [attr_ok] in Atz. destruct Atz as (Q1 & Q2).
    assert (Vz : value_e z = - a) by (rewrite Va; exact Vy).
    cbn [try_eval]. unfold try_eval_attr. rewrite Hz. cbn [snd]. unfold top_ge0. destruct (Z.leb_spec 0 q); [|lia]. do 2 f_equal. rewrite Q1, Q2, Vz. rewrite Z.mul_comm. apply Z.abs_sgn.
  Qed.

  Lemma small_attr (x : num fl) a : wf x -> try_eval x = Some (Some a) -> tower_value x = (O, TI (Z.abs a)) /\ sign x = Z.sgn a.
  Proof.
    intros W E. pose proof (try_eval_ok _ x a W E) as V. destruct x as [z|x]; [injection E as <-; split; reflexivity|].
    change (wf_e x) in W. apply wf_e_eq in W. destruct W as (_ & _ & _ & _ & At). cbn [try_eval] in E. unfold try_eval_attr in E.
    destruct (top_ge0 _); [|discriminate]. cbn [tower_value sign]. destruct (e_tower x) as [[|h] [q|q]]; try discriminate.
    destruct At as (-> & ->). change (value_e x) with (value (Exp x)). rewrite <- V. split; reflexivity.
  Qed.

  Lemma cmp_pos n fuel (x : expint fl) (y : num fl) a b : wf_e x -> wf y -> try_eval (Exp x) = Some (Some a) -> try_eval y = Some (Some b) -> 0 <= a ->
    gt (S n) fuel x y = Some (b <? a) /\ ge (S n) fuel x y = Some (b <=? a).
  Proof.
    intros Wx Wy Ea Eb Ha. destruct (small_attr (Exp x) a Wx Ea) as (Tx & Sx). destruct (small_attr y b Wy Eb) as (Ty & Sy). cbn [tower_value sign] in Tx, Sx.
    cbn [gt ge]. rewrite Sx, Sy, Tx, Ty. destruct (Z.ltb_spec (Z.sgn a) 0); [lia|]. destruct (Z.ltb_spec (Z.sgn b) 0).
    - destruct (Z.ltb_spec b a); [|lia]. destruct (Z.leb_spec b a); [auto|lia].
    - unfold tower_gt, tower_ge, tower_cmp. cbn [fst snd Nat.compare top_cmp]. rewrite !Z.abs_eq by lia.
      destruct (Z.compare_spec a b); destruct (Z.ltb_spec b a); destruct (Z.leb_spec b a); auto; lia.
  Qed.

  Lemma cmp_small n fuel (x : expint fl) (y : num fl) a b : good (Exp x) -> good y -> try_eval (Exp x) = Some (Some a) -> try_eval y = Some (Some b) ->
    (forall r, gt (S (S n)) fuel x y = Some r -> r = (b <? a)) /\ (forall r, ge (S (S n)) fuel x y = Some r -> r = (b <=? a)).
  Proof.
    intros Gx Gy Ea Eb. destruct (Z_lt_le_dec a 0) as [Ha|Ha].
    2:{ destruct (cmp_pos (S n) fuel x y a b (proj1 Gx) (proj1 Gy) Ea Eb Ha) as (-> & ->). split; congruence. }
    destruct (small_attr (Exp x) a (proj1 Gx) Ea) as (_ & Sx). cbn [sign] in Sx.
    assert (N : forall x' y', neg fuel (Exp x) = Some (Exp x') -> neg fuel y = Some y' -> gt (S n) fuel x' y' = Some (- b <? - a) /\ ge (S n) fuel x' y' = Some (- b <=? - a)).
    { intros x' y' Ex Ey. pose proof (neg_ok fl sqrt_neg _ _ _ (proj1 Gx) Ex) as (Wx' & _). pose proof (neg_ok fl sqrt_neg _ _ _ (proj1 Gy) Ey) as (Wy' & _).
      destruct (neg_small fuel x a _ Gx Ea Ex) as (z & [= <-] & Ez).
      assert (Eb' : try_eval y' = Some (Some (- b))).
      { destruct y as [v|y]; [injection Eb as ->; injection Ey as <-; reflexivity|]. destruct (neg_small fuel y b _ Gy Eb Ey) as (w & -> & Ew). exact Ew. }
      apply cmp_pos; auto. lia. }
    change (gt (S (S n)) fuel x y) with (if e_sign x <? 0 then
        match neg fuel (Exp x), neg fuel y with
        | Some (Exp x), Some y => option_map negb (ge (S n) fuel x y)
        | _, _ => None
        end
      else if sign y <? 0 then Some true
      else Some (tower_gt (e_tower x) (tower_value y))).
    change (ge (S (S n)) fuel x y) with (if e_sign x <? 0 then
        match neg fuel (Exp x), neg fuel y with
        | Some (Exp x), Some y => option_map negb (gt (S n) fuel x y)
        | _, _ => None
        end
      else if sign y <? 0 then Some true
      else Some (tower_ge fl (e_tower x) (tower_value y))).
    rewrite Sx. destruct (Z.ltb_spec (Z.sgn a) 0); [|lia].
    destruct (neg fuel (Exp x)) as [[|x']|]; try (split; discriminate). destruct (neg fuel y) as [y'|]; [|split; discriminate].
    destruct (N x' y' eq_refl eq_refl) as (-> & ->). split; intros r [= <-].
    - destruct (Z.leb_spec (- b) (- a)); destruct (Z.ltb_spec b a); auto; lia.
    - destruct (Z.ltb_spec (- b) (- a)); destruct (Z.leb_spec b a); auto; lia.
  Qed.

  (** ** Numbers built by the operations *)
  Lemma built_good x v : built fl x v -> good x /\ value x = v.
  Proof.
    induction 1 as [z|fuel b e x n He (Ge & Ve) Hn E|fuel x y z u v Hx (Gx & Vx) Hy (Gy & Vy) E|fuel x y z u v Hx (Gx & Vx) Hy (Gy & Vy) E
      |fuel x y z u v Hx (Gx & Vx) Hy (Gy & Vy) E|fuel x z u Hx (Gx & Vx) E|fuel x y z q v Hx (Gx & Vx) Hy (Gy & Vy) E].
    - split; [split; exact I|reflexivity].
    - assert (N : normal x) by (eapply exp_int_normal; [exact Ge|lia|exact E]). apply (exp_int_ok fl sqrt_neg) in E; [|apply Ge|lia]. destruct E as (W & ->). rewrite Ve. split; [split; auto|auto].
    - assert (N : normal z) by (eapply add_normal; [| |exact E]; auto). apply (add_ok' fl sqrt_neg) in E; [|apply Gx|apply Gy]. destruct E as (W & ->). rewrite Vx, Vy. split; [split; auto|auto].
    - assert (N : normal z) by (eapply sub_normal; [| |exact E]; auto). apply (sub_ok fl sqrt_neg) in E; [|apply Gx|apply Gy]. destruct E as (W & ->). rewrite Vx, Vy. split; [split; auto|auto].
    - assert (N : normal z) by (eapply mul_normal; [| |exact E]; auto). apply (mul_ok' fl sqrt_neg) in E; [|apply Gx|apply Gy]. destruct E as (W & ->). rewrite Vx, Vy. split; [split; auto|auto].
    - assert (N : normal z) by (eapply neg_normal; [|exact E]; auto). apply (neg_ok fl sqrt_neg) in E; [|apply Gx]. destruct E as (W & ->). rewrite Vx. split; [split; auto|auto].
    - assert (N : normal z) by (eapply truediv_normal; [|exact E]; auto). change (value_e x = q * v) in Vx.
      apply (truediv_ok fl sqrt_neg) in E; [|apply Gx|apply Gy|exists q; congruence]. destruct E as (Hv & W & X). rewrite Vx, Vy in *. split; [split; auto|]. apply Z.mul_reg_r in X; auto.
  Qed.
End Normal.
