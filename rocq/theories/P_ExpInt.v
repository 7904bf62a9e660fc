(** * Formula integers: the constructors and operations are exact *)
Require Import ZArith List Lia Bool Znumtheory Permutation.
From Verif Require Import M_Math M_ExpInt Spec_ExpInt P_Math.
Import ListNotations.
Open Scope Z_scope.

Section ExpInt.
  Variable fl : floats.
  (** math.sqrt raises ValueError for a negative number *)
  Hypothesis sqrt_neg : forall n, n < 0 -> fl_sqrt fl n = None.

  Lemma value_e_eq (x : expint fl) : value_e x = (sum (e_terms x) + e_const x) / e_denom x.
  Proof. destruct x as [ts c d b n w s]. reflexivity. Qed.

  Lemma value_t_eq (t : term fl) : value_t t = t_coef t * t_base t ^ value (t_exponent t).
  Proof. destruct t. reflexivity. Qed.

  Lemma wf_e_eq (x : expint fl) : wf_e x <-> e_terms x <> [] /\ 0 < e_denom x /\ (e_denom x | sum (e_terms x) + e_const x) /\
    Forall wf_t (e_terms x) /\ attr_ok (e_sign x) (e_tower x) (value_e x).
  Proof.
    destruct x as [ts c d b n w s]. cbn [wf_e e_terms e_const e_denom e_sign e_tower]. rewrite value_e_eq. cbn [e_terms e_const e_denom].
    assert (X : (fix all (ts : list (term fl)) : Prop := match ts with [] => True | t :: ts => wf_t t /\ all ts end) ts <-> Forall wf_t ts).
    { clear. induction ts as [|t ts IH]; split; intros H; auto.
      - destruct H as (H1 & H2). constructor; auto. now apply IH.
      - inversion H; subst. split; auto. now apply IH. }
    rewrite X. reflexivity.
  Qed.

  Lemma wf_t_eq (t : term fl) : wf_t t <-> 2 <= t_base t /\ t_coef t <> 0 /\ wf (t_exponent t) /\ 0 <= value (t_exponent t) /\
    attr_ok (t_sign t) (t_tower t) (value_t t).
  Proof. destruct t as [b c e n w]. rewrite value_t_eq. reflexivity. Qed.

  Lemma wf_int z : wf (Int z : num fl). Proof. exact I. Qed.

  Lemma sum_cons t (ts : list (term fl)) : sum (t :: ts) = value_t t + sum ts. Proof. reflexivity. Qed.
  Lemma sum_app (a b : list (term fl)) : sum (a ++ b) = sum a + sum b.
  Proof. induction a as [|t a IH]; simpl; auto. rewrite IH. lia. Qed.

  (** ** Evaluation *)
  Lemma try_eval_attr_ok sg (w : tower fl) v z : attr_ok sg w v -> try_eval_attr sg w = Some (Some z) -> z = v.
  Proof.
    unfold try_eval_attr. destruct w as [[|h] [x|f]]; simpl; try contradiction; destruct (_ : bool); try discriminate.
    intros (-> & ->) [= <-]. rewrite Z.mul_comm. apply Z.abs_sgn.
  Qed.

  Lemma try_eval_ok (x : num fl) z : wf x -> try_eval x = Some (Some z) -> z = value x.
  Proof.
    destruct x as [a|x]; simpl; [intros _ [= ->]; reflexivity|]. intros H. apply wf_e_eq in H. destruct H as (_ & _ & _ & _ & H). apply try_eval_attr_ok; auto.
  Qed.

  Lemma try_eval_term_ok (t : term fl) z : wf_t t -> try_eval_term t = Some (Some z) -> z = value_t t.
  Proof. intros H. apply wf_t_eq in H. apply try_eval_attr_ok. tauto. Qed.

  Lemma try_eval_height (t : term fl) : try_eval_term t = Some None -> (0 < fst (t_tower t))%nat.
  Proof.
    unfold try_eval_term, try_eval_attr. destruct (top_ge0 _); [|discriminate]. destruct (t_tower t) as [[|h] [x|f]]; simpl; try discriminate; lia.
  Qed.

  Lemma sgn_abs_mul c v : c <> 0 -> 0 < v -> Z.sgn c * Z.abs (c * v) = c * v /\ Z.sgn c = Z.sgn (c * v).
  Proof. intros Hc Hv. rewrite Z.sgn_mul, Z.abs_mul. rewrite (Z.sgn_pos v), (Z.abs_eq v) by lia. rewrite Z.mul_assoc. rewrite (Z.mul_comm (Z.sgn c)), Z.abs_sgn. lia. Qed.

  Lemma eval_term_ok b c (e : num fl) w : 2 <= b -> c <> 0 -> wf e -> 0 <= value e -> eval_term b c e = Some w -> attr_ok (Z.sgn c) w (c * b ^ value e).
  Proof.
    intros Hb Hc He Hv. unfold eval_term. pose proof (fun z => try_eval_ok e z He) as X.
    assert (Big : match e with Int _ => None | Exp k => if top_ge0 (snd (e_tower k)) then Some (S (fst (e_tower k)), snd (e_tower k)) else None end = Some w ->
       attr_ok (Z.sgn c) w (c * b ^ value e)).
    { destruct e as [a|k]; [discriminate|]. destruct (top_ge0 _); [|discriminate]. intros [= <-]. exact I. }
    assert (Small : forall z, z = value e -> (if z <? 0 then None
      else if z <? EXP_THRESHOLD then Some (O, TI (Z.abs (c * b ^ z)))
      else match fl_term fl z b c with Some w => Some (1%nat, w) | None => None end) = Some w -> attr_ok (Z.sgn c) w (c * b ^ value e)).
    { intros z ->. destruct (Z.ltb_spec (value e) 0); [discriminate|]. destruct (value e <? EXP_THRESHOLD).
      - intros [= <-]. simpl. split; [reflexivity|]. apply sgn_abs_mul; auto. apply Z.pow_pos_nonneg; lia.
      - destruct (fl_term fl _ b c); [|discriminate]. intros [= <-]. exact I. }
    destruct (try_eval e) as [[z|]|]; [|exact Big|discriminate].
    specialize (X z eq_refl). destruct z; [exact Big|apply Small; auto..].
  Qed.

  (** the greatest tower is one of the list and at least as high as each *)
  Lemma fold_max_height (ws : list (tower fl)) : forall w, (fst w <= fst (fold_left (fun a b => if tower_gt b a then b else a) ws w))%nat /\
    forall x, In x ws -> (fst x <= fst (fold_left (fun a b => if tower_gt b a then b else a) ws w))%nat.
  Proof.
    assert (G : forall a b : tower fl, tower_gt b a = true -> (fst a <= fst b)%nat).
    { intros a b. unfold tower_gt, tower_cmp. destruct (Nat.compare_spec (fst b) (fst a)); try discriminate; lia. }
    assert (G' : forall a b : tower fl, tower_gt b a = false -> (fst b <= fst a)%nat).
    { intros a b. unfold tower_gt, tower_cmp. destruct (Nat.compare_spec (fst b) (fst a)); try discriminate; lia. }
    induction ws as [|x ws IH]; intros w; simpl; [split; [lia|tauto]|].
    destruct (tower_gt x w) eqn:E; [destruct (IH x) as (I1 & I2)|destruct (IH w) as (I1 & I2)]; (split; [|intros y [<-|Hy]; auto]).
    - apply G in E. lia.
    - lia.
    - apply G' in E. lia.
  Qed.

  Lemma max_height (ws : list (tower fl)) x : In x ws -> (fst x <= fst (tower_max ws))%nat.
  Proof.
    destruct ws as [|w ws]; simpl; [tauto|]. destruct (fold_max_height ws w) as (I1 & I2). intros [<-|H]; auto.
  Qed.

  Lemma eval_int_ok (ts : list (term fl)) c d w sg : Forall wf_t ts -> 0 < d -> (d | sum ts + c) -> eval_int ts c d = Some (w, sg) ->
    attr_ok sg w ((sum ts + c) / d).
  Proof.
    intros Hw Hd Hdiv. unfold eval_int.
    match goal with |- context [match ?f ts with _ => _ end] => set (all := f) end.
    assert (X : match all ts with
                | Some (Some vs) => fold_right Z.add 0 vs = sum ts
                | Some None => exists t, In t ts /\ (0 < fst (t_tower t))%nat /\ t_sign t <> 0
                | None => True end).
    { clear Hdiv. induction ts as [|t ts IH]; [reflexivity|]. cbn. inversion Hw as [|? ? Ht Hts]; subst. specialize (IH Hts).
      fold all. destruct (try_eval_term t) as [[v|]|] eqn:E; [| |exact I].
      - pose proof (try_eval_term_ok t v Ht E) as ->.
        assert (Nz : value_t t <> 0).
        { apply wf_t_eq in Ht. destruct Ht as (H1 & H2 & _ & H4 & _). rewrite value_t_eq. apply Z.neq_mul_0. split; auto. apply Z.pow_nonzero; lia. }
        destruct (all ts) as [[vs|]|]; [| |exact I].
        + destruct (value_t t) eqn:Ev; [congruence| |]; unfold sum in IH; cbn; rewrite IH; reflexivity.
        + destruct IH as (u & H1 & H2). assert (Y : exists t0, In t0 (t :: ts) /\ (0 < fst (t_tower t0))%nat /\ t_sign t0 <> 0) by (exists u; simpl; tauto).
          destruct (value_t t); exact Y.
      - assert (Y : exists t0, In t0 (t :: ts) /\ (0 < fst (t_tower t0))%nat /\ t_sign t0 <> 0).
        { exists t. split; [simpl; auto|]. split; [now apply try_eval_height|]. apply wf_t_eq in Ht. unfold t_sign. intros Hz. apply (proj1 (Z.sgn_null_iff _)) in Hz. destruct Ht as (_ & Hc & _). auto. }
        destruct (all ts) as [[vs|]|]; [exact Y|exact Y|exact I]. }
    destruct (all ts) as [[vs|]|]; [| |discriminate].
    - rewrite X. intros [= <- <-]. simpl. split; reflexivity.
    - destruct X as (t & Hin & Hh & Hs).
      set (pos := tower_max (map t_tower (filter (fun t => 0 <? t_sign t) ts))).
      set (neg := tower_max (map t_tower (filter (fun t => t_sign t <? 0) ts))).
      destruct (tower_eq fl pos neg) eqn:Eq; [discriminate|]. cbv zeta.
      assert (H : (0 < fst (if tower_gt neg pos then neg else pos))%nat).
      { assert (Y : (0 < fst pos)%nat \/ (0 < fst neg)%nat).
        { destruct (Z.ltb_spec 0 (t_sign t)) as [S|S]; [left|right].
          - eapply Nat.lt_le_trans; [exact Hh|]. apply max_height, in_map, filter_In. split; auto. now apply Z.ltb_lt.
          - eapply Nat.lt_le_trans; [exact Hh|]. apply max_height, in_map, filter_In. split; auto. apply Z.ltb_lt. lia. }
        unfold tower_gt, tower_cmp. destruct (Nat.compare_spec (fst neg) (fst pos)); [|lia|lia].
        destruct (top_cmp fl (snd neg) (snd pos)); lia. }
      set (w0 := if tower_gt neg pos then neg else pos) in *. set (sg0 := if tower_gt neg pos then -1 else 1).
      assert (A : forall (w : tower fl) s v, (0 < fst w)%nat -> attr_ok s w v) by (intros [[|h] x] s v Hx; simpl in *; [lia|exact I]).
      destruct (d =? 1); [intros [= <- <-]; auto|]. destruct (fst w0) as [|[|h]] eqn:Ef; [discriminate| |intros [= <- <-]; apply A; lia].
      destruct (fl_denom fl (snd w0) d); [|discriminate]. intros [= <- <-]. exact I.
  Qed.

  (** ** The loops of the constructors *)
  Lemma norm_loop_ok (add1 : num fl -> option (num fl)) b :
    (forall e e', wf e -> 0 <= value e -> add1 e = Some e' -> wf e' /\ value e' = value e + 1) ->
    forall fuel c e c' e', 0 <= b -> c <> 0 -> wf e -> 0 <= value e -> norm_loop add1 fuel b c e = Some (c', e') ->
    2 <= b /\ c' <> 0 /\ wf e' /\ 0 <= value e' /\ c' * b ^ value e' = c * b ^ value e.
  Proof.
    intros Ha. induction fuel as [|fuel IH]; intros c e c' e' Hb Hc He Hv; [discriminate|]. cbn [norm_loop].
    destruct (Z.eqb_spec b 0); [discriminate|]. destruct (Z.eqb_spec (c mod b) 0) as [Em|Em].
    - destruct (add1 e) as [e1|] eqn:E1; [|discriminate]. intros E. destruct (Ha e e1 He Hv E1) as (H1 & H2).
      assert (Ec : c = b * (c / b)) by (apply Z_div_exact_full_2; auto).
      assert (Hc' : c / b <> 0) by (intros Hz; rewrite Hz in Ec; lia).
      apply IH in E; auto; [|lia]. destruct E as (I1 & I2 & I3 & I4 & I5). repeat split; auto. rewrite I5, H2, Z.pow_add_r, Z.pow_1_r by lia. rewrite Ec at 2. ring.
    - intros [= <- <-]. repeat split; auto. destruct (Z.eq_dec b 1) as [->|]; [rewrite Z.mod_1_r in Em; lia|lia].
  Qed.

  Lemma common_loop_ok (ts : list (term fl)) : forall g, common_loop g ts = Some (fold_left (fun g t => Z.gcd g (t_coef t)) ts g).
  Proof. induction ts as [|t ts IH]; intros g; cbn [common_loop fold_left]; auto. rewrite gcd_eq. apply IH. Qed.

  Lemma fold_gcd (ts : list (term fl)) : forall g, ts <> [] -> let r := fold_left (fun g t => Z.gcd g (t_coef t)) ts g in
    0 <= r /\ (r | g) /\ forall t, In t ts -> (r | t_coef t).
  Proof.
    induction ts as [|t ts IH]; intros g H; [congruence|]. cbn [fold_left]. destruct ts as [|u ts].
    - simpl. split; [apply Z.gcd_nonneg|]. split; [apply Z.gcd_divide_l|]. intros x [<-|[]]. apply Z.gcd_divide_r.
    - destruct (IH (Z.gcd g (t_coef t))) as (I1 & I2 & I3); [discriminate|]. split; auto. split.
      + eapply Z.divide_trans; [exact I2|apply Z.gcd_divide_l].
      + intros x [<-|Hx]; auto. eapply Z.divide_trans; [exact I2|apply Z.gcd_divide_r].
  Qed.

  Lemma omap_ok {A B} (f : A -> option B) l r : omap f l = Some r -> Forall2 (fun a b => f a = Some b) l r.
  Proof.
    revert r. induction l as [|a l IH]; intros r; simpl; [intros [= <-]; constructor|].
    destruct (f a) as [b|] eqn:E; [|discriminate]. fold (omap f l). destruct (omap f l) as [q|]; [|discriminate]. intros [= <-]. constructor; auto.
  Qed.

  Lemma terms_scale (R : term fl -> term fl -> Prop) (ts us : list (term fl)) k : Forall2 R ts us ->
    (forall t u, In t ts -> R t u -> wf_t u /\ value_t u = value_t t * k) -> Forall wf_t us /\ sum us = sum ts * k.
  Proof.
    intros H. induction H as [|t u ts us Hr H IH]; intros Hk; [split; [constructor|reflexivity]|].
    destruct (Hk t u (or_introl eq_refl) Hr) as (H1 & H2). destruct IH as (I1 & I2); [intros; apply Hk; simpl; auto|].
    split; [now constructor|]. rewrite !sum_cons, H2, I2. ring.
  Qed.

  (** ** Unfolding the constructors *)
  Lemma mk_term_S fuel (base coef : Z) (exponent : num fl) : mk_term (S fuel) base coef exponent =
      if coef =? 0 then None else
      match int_pow (fl_sqrt fl) (fl_log fl) base with
      | None => None
      | Some (n, k) =>
        match (if 1 <? k then mul_int fuel exponent k else Some exponent) with
        | None => None
        | Some exponent =>
          let base := if 1 <? k then n else base in
          match norm_loop (fun e => add_int fuel e 1) (Z.to_nat (Z.log2 (Z.abs coef)) + 2) base coef exponent with
          | None => None
          | Some (coef, exponent) =>
            match eval_term base coef exponent with
            | None => None
            | Some w => Some (ET base coef exponent (exp_int_depth exponent + 1) w)
            end
          end
        end
      end
    .
  Proof. reflexivity. Qed.
  Lemma mk_expint_S fuel (ts : list (term fl)) (const denom : Z) : mk_expint (S fuel) ts const denom =
      match ts with
      | [] => None                                  (* assert terms *)
      | t0 :: _ =>
        match gcd const denom with
        | None => None
        | Some g =>
          let common := Z.abs g * Z.sgn denom in
          match (if common =? 1 then Some 1 else common_loop common ts) with
          | None => None
          | Some common =>
            match (if common =? 1 then Some ts
                   else if common =? 0 then None    (* ZeroDivisionError *)
                   else omap (fun t => if t_coef t mod common =? 0
                                       then mk_term fuel (t_base t) (t_coef t / common) (t_exponent t) else None) ts) with
            | None => None
            | Some ts' =>
              let const := if common =? 1 then const else const / common in
              let denom := if common =? 1 then denom else denom / common in
              if 0 <? denom then
                let depth := fold_right Z.max 0 (map t_depth ts) in
                if MAX_DEPTH <? depth then None else
                match eval_int ts' const denom with
                | None => None
                | Some (w, sg) =>
                  if forallb (fun t => t_base t =? t_base t0) ts then Some (EI ts' const denom (t_base t0) depth w sg) else None
                end
              else None                             (* assert, line 293 *)
            end
          end
        end
      end
    .
  Proof. reflexivity. Qed.
  Lemma mul_int_S fuel (x : num fl) (k : Z) : mul_int (S fuel) x k =
      match x with
      | Int z => Some (Int (z * k))
      | Exp x =>
        if k =? 0 then Some (Int 0) else
        match omap (fun t => mk_term fuel (t_base t) (t_coef t * k) (t_exponent t)) (e_terms x) with
        | Some ts => match mk_expint fuel ts (e_const x * k) (e_denom x) with Some y => Some (Exp y) | None => None end
        | None => None
        end
      end
    .
  Proof. reflexivity. Qed.
  Lemma add_int_S fuel (x : num fl) (k : Z) : add_int (S fuel) x k =
      match x with
      | Int z => Some (Int (z + k))
      | Exp x => match mk_expint fuel (e_terms x) (e_const x + k * e_denom x) (e_denom x) with
                 | Some y => Some (Exp y) | None => None end
      end
    .
  Proof. reflexivity. Qed.

  (** ** Constructors *)
  Definition term_ok (fuel : nat) : Prop := forall b c (e : num fl) t, wf e -> 0 <= value e -> mk_term fuel b c e = Some t ->
    wf_t t /\ value_t t = c * b ^ value e.
  Definition int_ok (fuel : nat) : Prop := forall ts c d (x : expint fl), Forall wf_t ts -> d <> 0 -> (d | sum ts + c) -> mk_expint fuel ts c d = Some x ->
    wf_e x /\ value_e x = (sum ts + c) / d.
  Definition mul_ok (fuel : nat) : Prop := forall (x y : num fl) k, wf x -> mul_int fuel x k = Some y -> wf y /\ value y = value x * k.
  Definition add_ok (fuel : nat) : Prop := forall (x y : num fl) k, wf x -> add_int fuel x k = Some y -> wf y /\ value y = value x + k.

  Lemma int_pow_base b n k : int_pow (fl_sqrt fl) (fl_log fl) b = Some (n, k) -> 0 <= b /\ 0 <= n /\ n ^ k = b /\ 0 <= k.
  Proof.
    unfold int_pow. destruct (Z.ltb_spec b 0) as [L|L]; [rewrite sqrt_neg by auto; discriminate|].
    destruct (fl_sqrt fl b) as [s|]; [|discriminate]. intros E.
    assert (X : forall count m r k, 1 < m -> int_pow_loop (fl_log fl) b m count = Some (r, k) -> 0 <= r).
    { induction count as [|cn IH]; intros m r j Hm; simpl; [intros [= <- <-]; auto|]. destruct (fl_log fl b m); [|discriminate].
      destruct ((0 <=? z) && (m ^ z =? b)); [intros [= <- <-]; lia|]. apply IH. lia. }
    pose proof (X _ 2 _ _ ltac:(lia) E). apply int_pow_loop_sound in E; [|lia]. tauto.
  Qed.

  Lemma constructors fuel : term_ok fuel /\ int_ok fuel /\ mul_ok fuel /\ add_ok fuel.
  Proof.
    induction fuel as [|fuel (IT & II & IM & IA)]; [repeat split; intros; discriminate|]. split; [|split; [|split]].
    - intros b c e t He Hv. rewrite mk_term_S. destruct (Z.eqb_spec c 0) as [|Hc]; [discriminate|].
      destruct (int_pow _ _ b) as [[n k]|] eqn:Ep; [|discriminate]. destruct (int_pow_base _ _ _ Ep) as (Hb & Hn & Enk & Hk).
      set (b' := if 1 <? k then n else b).
      assert (X : forall e1, (if 1 <? k then mul_int fuel e k else Some e) = Some e1 -> wf e1 /\ 0 <= value e1 /\ b' ^ value e1 = b ^ value e).
      { intros e1. unfold b'. destruct (Z.ltb_spec 1 k).
        - intros E. apply IM in E; auto. destruct E as (H1 & ->). split; auto. split; [nia|]. rewrite Z.mul_comm, Z.pow_mul_r by lia. now rewrite Enk.
        - intros [= <-]. auto. }
      destruct (if 1 <? k then mul_int fuel e k else Some e) as [e1|]; [|discriminate]. destruct (X e1 eq_refl) as (H1 & H2 & H3).
      cbv zeta. fold b'. destruct (norm_loop (fun e => add_int fuel e 1) (Z.to_nat (Z.log2 (Z.abs c)) + 2) b' c e1) as [[c' e']|] eqn:En; [|discriminate].
      assert (Hb' : 0 <= b') by (unfold b'; destruct (1 <? k); auto).
      apply norm_loop_ok in En; [|intros x y Hx Hy Exy; apply IA in Exy; tauto|auto..].
      destruct En as (N1 & N2 & N3 & N4 & N5). destruct (eval_term b' c' e') as [w|] eqn:Ew; [|discriminate]. intros [= <-].
      rewrite value_t_eq. cbn [t_coef t_base t_exponent]. split; [|rewrite N5, H3; reflexivity].
      apply wf_t_eq. cbn [t_coef t_base t_exponent t_tower]. repeat split; auto. rewrite value_t_eq. cbn [t_coef t_base t_exponent]. unfold t_sign. cbn [t_coef].
      apply eval_term_ok; auto.
    - intros ts c d x Hts Hd Hdiv. rewrite mk_expint_S. destruct ts as [|t0 ts0] eqn:Ets; [discriminate|]. rewrite <- Ets in *. assert (Hne : ts <> []) by congruence. clear Ets ts0.
      rewrite gcd_eq. set (g := Z.abs (Z.gcd c d) * Z.sgn d).
      assert (G : (g | c) /\ (g | d)).
      { unfold g. rewrite (Z.abs_eq (Z.gcd c d)) by apply Z.gcd_nonneg. 
        assert (Q : Z.sgn d * Z.sgn d = 1) by lia.
        assert (D : forall a, (Z.gcd c d | a) -> (Z.gcd c d * Z.sgn d | a)).
        { intros a (q & Hq). exists (q * Z.sgn d). rewrite Hq. replace (q * Z.sgn d * (Z.gcd c d * Z.sgn d)) with (q * Z.gcd c d * (Z.sgn d * Z.sgn d)) by ring. rewrite Q. ring. }
        split; apply D; [apply Z.gcd_divide_l|apply Z.gcd_divide_r]. }
      cbv zeta. fold g. rewrite common_loop_ok.
      assert (X : forall m, (if g =? 1 then Some 1 else Some (fold_left (fun g t => Z.gcd g (t_coef t)) ts g)) = Some m ->
         m = 1 \/ ((m | c) /\ (m | d) /\ forall t, In t ts -> (m | t_coef t))).
      { intros m. destruct (Z.eqb_spec g 1); [intros [= <-]; auto|]. intros [= <-].
        right. destruct (fold_gcd ts g Hne) as (F1 & F2 & F3). split; [eapply Z.divide_trans; [exact F2|apply G]|]. split; [eapply Z.divide_trans; [exact F2|apply G]|exact F3]. }
      destruct (if g =? 1 then Some 1 else _) as [m|]; [|discriminate]. specialize (X m eq_refl).
      set (terms' := if m =? 1 then Some ts else _). cbv zeta.
      destruct terms' as [ts'|] eqn:Et; [|discriminate]. unfold terms' in Et.
      set (c' := if m =? 1 then c else c / m) in *. set (d' := if m =? 1 then d else d / m) in *.
      assert (Y : Forall wf_t ts' /\ sum ts' * m = sum ts /\ c' * m = c /\ d' * m = d /\ m <> 0).
      { unfold c', d'. destruct (Z.eqb_spec m 1) as [-> |M1]; [injection Et as <-; repeat split; auto; lia|].
        destruct (Z.eqb_spec m 0) as [|M0]; [discriminate|]. destruct X as [X|(X1 & X2 & X3)]; [congruence|].
        assert (D : forall a, (m | a) -> a / m * m = a) by (intros a (q & ->); now rewrite Z.div_mul).
        apply omap_ok in Et.
        assert (S : Forall wf_t ts' /\ sum ts' * m = sum ts).
        { clear - Et Hts IT M0 X3 D. induction Et as [|t u ts ts' H Et IH]; [split; [constructor|reflexivity]|].
          inversion Hts as [|? ? Ht Hts']; subst. destruct IH as (I1 & I2); auto; [intros; apply X3; simpl; auto|].
          destruct (t_coef t mod m =? 0); [|discriminate]. apply wf_t_eq in Ht. destruct Ht as (T1 & T2 & T3 & T4 & _).
          apply IT in H; auto. destruct H as (H1 & H2). split; [now constructor|]. rewrite !sum_cons, Z.mul_add_distr_r, I2, H2, value_t_eq.
          rewrite <- (D (t_coef t)) at 2 by (apply X3; simpl; auto). ring. }
        split; [apply S|]. split; [apply S|]. split; auto. }
      destruct Y as (Y1 & Y2 & Y3 & Y4 & Y5). destruct (Z.ltb_spec 0 d') as [Dp|]; [|discriminate].
      destruct (MAX_DEPTH <? _); [discriminate|]. destruct (eval_int ts' c' d') as [[w sg]|] eqn:Ee; [|discriminate].
      destruct (forallb _ ts); [|discriminate]. intros [= <-].
      assert (Dv : (d' | sum ts' + c')).
      { destruct Hdiv as (q & Hq). exists q. apply (Z.mul_reg_r _ _ m); auto. rewrite Z.mul_add_distr_r, Y2, Y3, Hq. rewrite <- Y4. ring. }
      assert (Ev : (sum ts' + c') / d' = (sum ts + c) / d).
      { rewrite <- Y2, <- Y3, <- Y4, <- Z.mul_add_distr_r. rewrite Z.div_mul_cancel_r; auto. lia. }
      rewrite value_e_eq. cbn [e_terms e_const e_denom]. split; auto. apply wf_e_eq. cbn [e_terms e_const e_denom e_sign e_tower]. rewrite value_e_eq. cbn [e_terms e_const e_denom].
      split; [|split; [auto|split; [auto|split; [auto|apply eval_int_ok; auto]]]].
      unfold terms' in Et. destruct (m =? 1); [injection Et as <-|].
      + exact Hne.
      + destruct (m =? 0); [discriminate|]. apply omap_ok in Et. intros Hn. rewrite Hn in Et. inversion Et as [Hts0|]. now apply Hne.
    - intros x y k Hx. rewrite mul_int_S. destruct x as [a|x]; [intros [= <-]; split; [exact I|reflexivity]|].
      destruct (Z.eqb_spec k 0) as [->|Hk]; [intros [= <-]; split; [exact I|rewrite Z.mul_0_r; reflexivity]|]. change (wf_e x) in Hx. apply wf_e_eq in Hx. destruct Hx as (X1 & X2 & X3 & X4 & _).
      destruct (omap _ (e_terms x)) as [ts|] eqn:Et; [|discriminate]. apply omap_ok in Et.
      destruct (mk_expint fuel ts _ _) as [z|] eqn:Ez; [|discriminate]. intros [= <-].
      destruct (terms_scale _ _ _ k Et) as (S1 & S2).
      { intros t u Hin Hu. rewrite Forall_forall in X4. specialize (X4 t Hin). apply wf_t_eq in X4. destruct X4 as (T1 & T2 & T3 & T4 & _).
        apply IT in Hu; auto. destruct Hu as (U1 & U2). split; auto. rewrite U2, value_t_eq. ring. }
      assert (Es : sum ts + e_const x * k = (sum (e_terms x) + e_const x) * k) by (rewrite S2; ring).
      apply II in Ez; auto; [|lia|rewrite Es; now apply Z.divide_mul_l]. destruct Ez as (Z1 & Z2). split; [exact Z1|]. change (value (Exp z)) with (value_e z). change (value (Exp x)) with (value_e x).
      rewrite Z2, Es, value_e_eq. destruct X3 as (q & ->). rewrite Z.div_mul by lia. replace (q * e_denom x * k) with (q * k * e_denom x) by ring. rewrite Z.div_mul by lia. reflexivity.
    - intros x y k Hx. rewrite add_int_S. destruct x as [a|x]; [intros [= <-]; split; [exact I|reflexivity]|]. change (wf_e x) in Hx. apply wf_e_eq in Hx. destruct Hx as (X1 & X2 & X3 & X4 & _).
      destruct (mk_expint fuel _ _ _) as [z|] eqn:Ez; [|discriminate]. intros [= <-].
      assert (Es : sum (e_terms x) + (e_const x + k * e_denom x) = (sum (e_terms x) + e_const x) + k * e_denom x) by ring.
      apply II in Ez; auto; [|lia|rewrite Es; apply Z.divide_add_r; [exact X3|apply Z.divide_factor_r]]. destruct Ez as (Z1 & Z2). split; [exact Z1|]. change (value (Exp z)) with (value_e z). change (value (Exp x)) with (value_e x).
      rewrite Z2, Es, value_e_eq. rewrite Z.div_add by lia. reflexivity.
  Qed.
End ExpInt.
