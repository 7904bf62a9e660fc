(** * From the generalised run to a difference rule or a general rule *)
Require Import ZArith List Lia Bool Arith QArith Qround Permutation.
From Verif Require Import Spec_TM M_Turing_Machine P_Stream P_SimLimited P_Macro P_Pump
     M_Expr P_Expr M_Tape M_Simulator P_Tape P_Simulator M_Prover P_Lin P_GenSim P_Form P_GenLoop P_Nums P_Rule.
Import ListNotations.
Open Scope Z_scope.

(** counts plus [k] times the differences *)
Definition add1 (k : Z) (nd : option Z * option val) : option Z :=
  match nd with (Some n, Some d) => Some (n + k * zev (fun _ => 0) d) | _ => None end.
Definition addk (k : Z) (ns : list (option Z)) (ds : list (option val)) : list (option Z) :=
  map (add1 k) (combine ns ds).

(** a block of a difference rule *)
Definition dblock (i d : option val) : Prop :=
  match i, d with
  | None, None => True
  | Some (VS p), Some (VS r) => (exists n, p = inject_Z n /\ 1 <= n) /\ r = inject_Z 0
  | Some (VE e), Some (VS r) => exists x c z, e = var_plus x (inject_Z c) /\ 1 <= c /\ r = inject_Z z
  | _, _ => False
  end.

(** a block of a general rule: variable, minimum and result *)
Definition gblock (V : list nat) (vm : option nat * option Q) (r : option val) : Prop :=
  match vm, r with
  | (None, None), None => True
  | (None, Some p), Some w => p = inject_Z 1 /\ w = VS (inject_Z 1)
  | (Some x, Some p), Some w => lv w /\ incl (v_variables w) V /\ exists z, p = inject_Z z /\ 1 <= z
  | _, _ => False
  end.
Definition ovar (o : option nat) : list nat := match o with Some x => [x] | None => [] end.
Definition cnt (sg : nat -> Z) (vm : option nat * option Q) : option Z :=
  match vm with
  | (Some x, _) => Some (sg x)
  | (None, Some _) => Some 1
  | (None, None) => None
  end.

(** how the counts of a tape fit the blocks of a rule *)
Definition dalign (i : option val) (n : option Z) : Prop :=
  match i, n with
  | None, None => True
  | Some (VS p), Some n => p = inject_Z n
  | Some (VE _), Some n => 1 <= n
  | _, _ => False
  end.
Definition galign (vm : option nat * option Q) (n : option Z) : Prop :=
  match vm, n with
  | (None, None), None => True
  | (None, Some _), Some n => n = 1
  | (Some _, Some _), Some n => 1 <= n
  | _, _ => False
  end.

Section Make.
  Context {Sym St : Type}.
  Variables (Gd : Prop) (T : table) (M : machine Sym St) (Rp : dcfg Sym St -> config -> Prop)
            (halted : St -> Prop).
  Hypothesis MS : msound Gd T M Rp halted.
  Hypothesis SW : seen_wf M Rp.
  Hypothesis PU : pumpable Rp.
  Notation i0 := (m_init_sym M).
  Notation wf := (twf i0).
  Notation den := (tden i0).

  Record diff_ok (sh : dir * list Sym * list Sym) (q : St) (inits diffs : list (option val))
         (num : val) (seen : ndict val) : Prop := {
    do_blocks : Forall2 dblock inits diffs;
    do_nodup : NoDup (flat_map nvars inits);
    do_steps : lv num;
    do_svars : incl (v_variables num) (flat_map nvars inits);
    do_seen : dlin seen /\ NoDup (map fst seen) /\ dvars seen (flat_map nvars inits);
    do_run : forall sg, (forall x, In x (flat_map nvars inits) -> 0 <= sg x) ->
      trans_ok T M Rp q (mk sh (ez sg inits)) (mk sh (addk 1 (ez sg inits) diffs))
               (zev sg num) (ed sg seen) }.

  Record gen_ok (sh : dir * list Sym * list Sym) (q : St) (vars : list (option nat))
         (mins : list (option Q)) (result : list (option val)) (inf : bool)
         (num : val) (seen : ndict val) : Prop := {
    go_len : length vars = length mins;
    go_blocks : Forall2 (gblock (flat_map ovar vars)) (combine vars mins) result;
    go_nodup : NoDup (flat_map ovar vars);
    go_steps : lv num;
    go_svars : incl (v_variables num) (flat_map ovar vars);
    go_seen : dlin seen /\ NoDup (map fst seen) /\ dvars seen (flat_map ovar vars);
    go_inf : inf = true -> forallb gen_infinite (combine vars result) = true;
    go_run : forall sg,
      (forall x z, In (Some x, Some (inject_Z z)) (combine vars mins) -> z <= sg x) ->
      trans_ok T M Rp q (mk sh (map (cnt sg) (combine vars mins))) (mk sh (ez sg result))
               (zev sg num) (ed sg seen) }.

  (** a stored rule is true for every tape with its key *)
  Definition rule_ok (k : key) (r : rule) : Prop :=
    exists sh q,
      (forall t' q', wf t' -> strip_config z_is1 q' t' = k -> q' = q /\ shape t' = sh /\
         match r with
         | RDiff inits _ _ _ => Forall2 dalign inits (nums t')
         | RGen vars mins _ _ _ _ => Forall2 galign (combine vars mins) (nums t')
         end) /\
      match r with
      | RDiff inits diffs num seen => diff_ok sh q inits diffs num seen
      | RGen vars mins result inf num seen => gen_ok sh q vars mins result inf num seen
      end.

  (** ** final and initial counts *)
  Definition fi (V : list nat) (m : ndict Q) (f i : option val) : Prop :=
    match i with
    | None => f = None
    | Some (VS p) => p = inject_Z 1 /\ f = Some (VS (inject_Z 1))
    | Some (VE e) => exists x c a v, e = var_plus x (inject_Z c) /\ nd_get x m = Some (inject_Z a) /\ a <= c /\
                       f = Some v /\ av m v /\ incl (v_variables v) V
    end.

  Lemma var_not1 x d : v_is1 (VE (var_plus x d)) = false.
  Proof. unfold v_is1, e_eqb. simpl. apply andb_false_iff. now right. Qed.

  Lemma fi_make V m0 m f n i : mle m m0 ->
    match f with Some v => av m v /\ incl (v_variables v) V | None => True end ->
    frel v_is1 z_is1 f n -> irel m0 n i -> fi V m f i.
  Proof.
    intros Hm Hf Hr Hi. destruct n as [z|]; simpl in Hi.
    - destruct f as [v|]; simpl in Hr; [|contradiction]. destruct Hf as [Hv Hs].
      destruct (z =? 1) eqn:E1.
      + subst i. simpl. split; auto. unfold z_is1 in Hr. rewrite E1 in Hr.
        pose proof (av_nform _ _ Hv) as [(y & -> & Hy)|(x & d & ->)].
        * simpl in Hr. apply Qeq_bool_iff in Hr. apply (injZ_inj y 1) in Hr. now subst.
        * rewrite var_not1 in Hr. discriminate.
      + destruct Hi as (x & c & -> & Hc & Ex). destruct (Hm _ _ Ex) as (a & Ea & Ha).
        simpl. exists x, c, a, v. repeat split; auto.
    - destruct f; simpl in Hr; [contradiction|]. subst i. reflexivity.
  Qed.

  Lemma tform_nums V m (t : ctape val Sym) : tform i0 (av m) t -> incl (tvars t) V ->
    Forall (fun o => match o with Some v => av m v /\ incl (v_variables v) V | None => True end) (nums t).
  Proof.
    intros [A B] H. apply nums_forall.
    assert (G : forall h, hform i0 (av m) h -> incl (hvars h) V ->
      Forall (fun o => match o with Some v => av m v /\ incl (v_variables v) V | None => True end) (map k_num h)).
    { induction 1; intros Hi; simpl; constructor; auto.
      - split; auto. intros x Hx. apply Hi. unfold hvars. simpl. apply in_or_app. auto.
      - apply IHhform. intros x Hx. apply Hi. unfold hvars. simpl. apply in_or_app. auto. }
    unfold tvars in H. apply incl_app_inv in H. destruct H. split; auto.
  Qed.

  (** ** differences *)
  Definition dblock0 (m : ndict Q) (i d : option val) : Prop :=
    match i, d with
    | None, None => True
    | Some (VS p), Some (VS r) => (exists n, p = inject_Z n /\ 1 <= n) /\ r = inject_Z 0
    | Some (VE e), Some (VS r) => exists x c a z, e = var_plus x (inject_Z c) /\
        nd_get x m = Some (inject_Z a) /\ a <= c /\ r = inject_Z z
    | _, _ => False
    end.

  Lemma norm_const v : lv v ->
    let w := match v with VS q => VS q | VE e => if e_is_const e then VS (e_const e) else VE e end in
    lv w /\ forall sg, zev sg w = zev sg v.
  Proof.
    destruct v as [q|e]; simpl; auto. intros [F [z Hz]]. unfold e_is_const.
    destruct (e_terms e) as [|t0 ts] eqn:E.
    - split; [simpl; eauto|]. intros sg. rewrite Hz, zev_VS. symmetry. apply zev_eq. simpl.
      unfold ev. rewrite E. simpl. rewrite Hz. ring.
    - split; auto. split; [rewrite E; auto|eauto].
  Qed.

  Lemma diffs_ok V m finals inits : Forall2 (fi V m) finals inits ->
    let diffs := map diff_num (combine finals inits) in
    forallb num_scalar diffs = true ->
    Forall2 (dblock0 m) inits diffs /\ forall sg, ez sg finals = addk 1 (ez sg inits) diffs.
  Proof.
    induction 1 as [|f i fs is Hf HF IH]; simpl; intros Hs.
    - split; [constructor|reflexivity].
    - apply andb_true_iff in Hs. destruct Hs as [Hs1 Hs2]. destruct (IH Hs2) as [I1 I2].
      destruct i as [[p|e]|]; simpl in Hf.
      + destruct Hf as [-> ->]. split.
        * constructor; auto. simpl. split; [exists 1; split; [reflexivity|lia]|reflexivity].
        * intros sg. unfold addk. simpl. f_equal. apply I2.
      + destruct Hf as (x & c & a & v & -> & Ea & Ha & -> & Hv & _).
        pose proof (nform_lin _ (av_nform _ _ Hv)) as Lv.
        assert (L : lv (v_sub v (VE (var_plus x (inject_Z c))))) by (apply v_sub_lin; auto; apply var_plus_lin).
        pose proof (norm_const _ L) as [N1 N2]. cbn zeta in N1, N2.
        cbn [diff_num] in *.
        destruct (match v_sub v (VE (var_plus x (inject_Z c))) with
                  | VS q => VS q | VE e => if e_is_const e then VS (e_const e) else VE e end) as [q|] eqn:Ed;
          [|simpl in Hs1; discriminate].
        destruct N1 as [z ->]. split.
        * constructor; auto. simpl. exists x, c, a, z. auto.
        * intros sg. unfold addk. cbn [ez map option_map combine]. cbn [add1].
          change (map (option_map (zev sg)) fs) with (ez sg fs).
          change (map (option_map (zev sg)) is) with (ez sg is).
          f_equal; [|apply I2]. f_equal.
          specialize (N2 sg). rewrite !zev_VS in *. rewrite zev_sub in N2 by (auto using var_plus_lin). lia.
      + subst f. split; [constructor; simpl; auto|]. intros sg. unfold addk. simpl. f_equal. apply I2.
  Qed.

  (** tightening *)
  Definition trel (m : ndict Q) (i : option val) (o : option val * subs) : Prop :=
    match i with
    | Some (VE e) => exists x c a, e = var_plus x (inject_Z c) /\ nd_get x m = Some (inject_Z a) /\ a <= c /\
        o = (Some (VE (var_plus x (inject_Z (c - a + 1)))), [(x, VE (var_plus x (inject_Z (1 - a))))])
    | _ => o = (i, [])
    end.
  Lemma tight_new x a : v_add (v_sub (VE (var_expr x)) (VS (inject_Z a))) (VS 1%Q) =
    VE (var_plus x (inject_Z (1 - a))).
  Proof.
    unfold v_sub, v_neg, v_add, e_addS, var_expr, var_plus. cbn [e_terms e_const].
    change 0%Q with (inject_Z 0) at 1. change 1%Q with (inject_Z 1) at 2.
    rewrite injZ_opp, !injZ_add. do 3 f_equal. lia.
  Qed.
  Lemma subst_var x c d s : subs_get x s = Some (VE (var_plus x (inject_Z d))) ->
    e_subst (var_plus x (inject_Z c)) s = Some (VE (var_plus x (inject_Z (d + c)))).
  Proof.
    intros E. unfold e_subst. unfold var_plus at 1. cbn [e_terms terms_subst term_subst t_vars map fold_left].
    unfold vp_subst. rewrite E. cbn [Nat.eqb t_coef]. unfold v_mul, v_add, e_mulS, e_addS, var_plus.
    change (qz 1) with false. cbn [e_terms e_const map t_vars t_coef].
    change (1 * 1)%Q with 1%Q. change 0%Q with (inject_Z 0). change 1%Q with (inject_Z 1).
    rewrite injZ_mul, !injZ_add. do 4 f_equal. lia.
  Qed.
  Lemma tighten_ok m i d : dblock0 m i d -> exists o, tighten m i = Some o /\ trel m i o.
  Proof.
    destruct i as [[p|e]|]; cbn [tighten dblock0 trel]; eauto. destruct d as [[r|]|]; try contradiction.
    intros (x & c & a & z & -> & Ea & Ha & _).
    change (variable_restricted (var_plus x (inject_Z c))) with (Some x). cbv iota beta. rewrite Ea, tight_new.
    rewrite (subst_var x c (1 - a)) by (simpl; now rewrite Nat.eqb_refl).
    eexists. split; [reflexivity|]. exists x, c, a. split; [reflexivity|]. split; [exact Ea|]. split; [exact Ha|].
    do 5 f_equal. lia.
  Qed.

  Lemma trel_vars m inits l : Forall2 (trel m) inits l ->
    flat_map nvars (map fst l) = flat_map nvars inits /\
    map fst (concat (map snd l)) = flat_map nvars inits /\
    (forall x u, In (x, u) (concat (map snd l)) ->
       exists a, nd_get x m = Some (inject_Z a) /\ u = VE (var_plus x (inject_Z (1 - a)))).
  Proof.
    induction 1 as [|i o is os H HF (I1 & I2 & I3)]; [simpl; tauto|].
    destruct i as [[p|e]|]; simpl in H.
    - subst o. simpl. auto.
    - destruct H as (x & c & a & -> & Ea & Ha & ->). cbn [map fst snd concat flat_map nvars app].
      rewrite !var_vars. simpl app. rewrite I1. split; [reflexivity|]. split; [simpl; now rewrite I2|].
      intros y u [E|Hy]; [|eauto]. injection E as <- <-. eauto.
    - subst o. simpl. auto.
  Qed.
  Lemma trel_ez m inits l sg R : NoDup (map fst R) -> Forall2 (trel m) inits l ->
    incl (concat (map snd l)) R -> ez sg (map fst l) = ez (ssub sg R) inits.
  Proof.
    intros ND. induction 1 as [|i o is os H HF IH]; intros Hi; [reflexivity|].
    assert (Hi2 : incl (concat (map snd os)) R).
    { intros x Hx. apply Hi. simpl. apply in_or_app. auto. }
    cbn [map ez]. change (map (option_map (zev sg)) (map fst os)) with (ez sg (map fst os)).
    change (map (option_map (zev (ssub sg R))) is) with (ez (ssub sg R) is).
    f_equal; auto. destruct i as [[p|e]|]; simpl in H.
    - subst o. reflexivity.
    - destruct H as (x & c & a & -> & Ea & Ha & ->). cbn [fst option_map]. f_equal.
      rewrite !zev_var_plus. unfold ssub.
      rewrite (subs_get_nodup R x (VE (var_plus x (inject_Z (1 - a))))); auto.
      + rewrite zev_var_plus. lia.
      + apply Hi. simpl. auto.
    - subst o. reflexivity.
  Qed.
  Lemma trel_dblock m inits l diffs : Forall2 (trel m) inits l -> Forall2 (dblock0 m) inits diffs ->
    Forall2 dblock (map fst l) diffs.
  Proof.
    intros H. revert diffs. induction H as [|i o is os H HF IH]; intros ds D; inversion D as [|? d ? ds' D1 D2]; subst;
      simpl; constructor; auto.
    destruct i as [[p|e]|]; simpl in H.
    - subst o. exact D1.
    - destruct H as (x & c & a & -> & Ea & Ha & ->). simpl. simpl in D1.
      destruct d as [[r|]|]; try contradiction. destruct D1 as (x' & c' & a' & z & E & Ea' & Ha' & ->).
      exists x, (c - a + 1), z. split; [reflexivity|]. split; [lia|reflexivity].
    - subst o. exact D1.
  Qed.

  Lemma diffs_subst m inits diffs R : Forall2 (dblock0 m) inits diffs ->
    map_opt (inf_opt (fun v => v_subst v R)) diffs = Some diffs.
  Proof.
    induction 1 as [|i d is ds H HF IH]; simpl; auto. rewrite IH.
    destruct d as [[q|e]|]; simpl; auto. destruct i as [[|]|]; simpl in H; contradiction.
  Qed.

  Lemma seen_subst_ok V (seen : ndict val) R : lsubs R -> dlin seen -> NoDup (map fst seen) -> dvars seen V ->
    (forall x u, In x V -> subs_get x R = Some u -> forall y, In y (v_variables u) -> y = x) ->
    exists seen', seen_map_opt (fun v => v_subst v R) seen = Some seen' /\
      dlin seen' /\ NoDup (map fst seen') /\ dvars seen' V /\
      forall sg, ed sg seen' = ed (ssub sg R) seen.
  Proof.
    intros LR Hd Hn Hv HR.
    destruct (seen_map_opt_ok (fun v w => lv v /\ incl (v_variables v) V /\ v_subst v R = Some w /\ lv w)
                (fun v => v_subst v R) seen) as (seen' & E & F).
    { intros k v Hk. unfold dlin in Hd. unfold dvars in Hv. rewrite Forall_forall in Hd, Hv.
      pose proof (Hd _ Hk) as Hl. pose proof (Hv _ Hk) as Hi. simpl in Hl, Hi.
      destruct (v_subst_lin v R Hl LR) as (w & Ew & Hw). exists w. auto. }
    exists seen'. split; [exact E|].
    assert (Ek : map fst seen' = map fst seen).
    { clear -F. induction F as [|? ? ? ? [H _] _ IH]; simpl; congruence. }
    split; [|split; [|split]].
    - unfold dlin. clear -F. induction F as [|? ? ? ? (_ & _ & _ & _ & H) _ IH]; constructor; auto.
    - now rewrite Ek.
    - unfold dvars. clear -F HR LR. induction F as [|? ? ? ? (_ & H1 & H2 & H3 & H4) _ IH]; constructor; auto.
      intros z Hz. destruct (v_subst_vars _ _ _ z H1 LR H3 Hz) as (y' & Hy & Hm).
      destruct (subs_get y' R) as [u|] eqn:Eu.
      + rewrite (HR _ _ (H2 _ Hy) Eu z Hm). auto.
      + subst. auto.
    - intros sg. clear -F LR. induction F as [|[k v] [k' w] ? ? (H0 & H1 & H2 & H3 & H4) _ IH]; simpl in *; auto.
      subst k'. f_equal; auto. f_equal. now apply zev_ssub.
  Qed.

  Lemma num_subst_ok V v R : lsubs R -> lv v -> incl (v_variables v) V ->
    (forall x u, In x V -> subs_get x R = Some u -> forall y, In y (v_variables u) -> y = x) ->
    exists w, v_subst v R = Some w /\ lv w /\ incl (v_variables w) V /\
      forall sg, zev sg w = zev (ssub sg R) v.
  Proof.
    intros LR Hl Hi HR. destruct (v_subst_lin v R Hl LR) as (w & Ew & Hw). exists w.
    split; [exact Ew|]. split; [exact Hw|]. split.
    - intros x Hx. destruct (v_subst_vars _ _ _ x Hl LR Ew Hx) as (y' & Hy & Hm).
      destruct (subs_get y' R) as [u|] eqn:Eu.
      + rewrite (HR _ _ (Hi _ Hy) Eu x Hm). auto.
      + subst. auto.
    - intros sg. now apply zev_ssub.
  Qed.

  Lemma subs_get_In s x u : subs_get x s = Some u -> In (x, u) s.
  Proof.
    induction s as [|[y w] s IH]; simpl; [discriminate|]. destruct (Nat.eqb x y) eqn:E; auto.
    apply Nat.eqb_eq in E. subst. intros [= ->]. auto.
  Qed.

  Lemma make_diff_ok sh q inits diffs m (s : sim val Sym St) seen :
    let V := flat_map nvars inits in
    lv (s_steps s) -> incl (v_variables (s_steps s)) V ->
    dlin seen -> NoDup (map fst seen) -> dvars seen V -> NoDup V ->
    Forall2 (dblock0 m) inits diffs ->
    (forall sg, on_valid V m sg ->
       trans_ok T M Rp q (mk sh (ez sg inits)) (mk sh (addk 1 (ez sg inits) diffs))
                (zev sg (s_steps s)) (ed sg seen)) ->
    exists ti num seen', make_diff inits diffs m s seen = Some (RDiff ti diffs num seen') /\
      diff_ok sh q ti diffs num seen' /\
      Forall2 (fun i o => match i with Some (VE _) => exists e, o = Some (VE e) | _ => o = i end) inits ti.
  Proof.
    intros V Ls Hsv S1 S2 S3 ND D Run. unfold make_diff.
    destruct (map_opt_ok (trel m) (tighten m) inits) as (l & -> & FT).
    { intros i Hi. destruct (Forall2_in_l _ _ _ _ D Hi) as (d & _ & Hd). eapply tighten_ok; eauto. }
    set (R := concat (map snd l)).
    destruct (trel_vars m inits l FT) as (V1 & V2 & V3). fold V in V1, V2. fold R in V2, V3.
    assert (LR : lsubs R).
    { apply Forall_forall. intros [x u] Hx. destruct (V3 _ _ Hx) as (a & _ & ->). apply var_plus_lin. }
    assert (NR : NoDup (map fst R)) by (rewrite V2; exact ND).
    assert (HR : forall x u, In x V -> subs_get x R = Some u -> forall y, In y (v_variables u) -> y = x).
    { intros x u _ E y Hy. apply subs_get_In in E. destruct (V3 _ _ E) as (a & _ & ->). simpl in Hy. intuition. }
    cbn zeta. rewrite (diffs_subst m inits) by exact D.
    destruct (num_subst_ok V (s_steps s) R LR Ls Hsv HR) as (w & -> & W1 & W2 & W3).
    destruct (seen_subst_ok V seen R LR S1 S2 S3 HR) as (seen' & -> & D1 & D2 & D3 & D4).
    do 3 eexists. split; [reflexivity|]. split.
    - set (num := match w with VS q0 => VE (Expr [] q0) | VE _ => w end).
      assert (Hnum : lv num /\ incl (v_variables num) V /\ forall sg, zev sg num = zev sg w).
      { unfold num. destruct w as [q0|e]; [|auto]. destruct W1 as [z ->]. split; [|split].
        - split; [constructor|]. exists z. reflexivity.
        - intros x [].
        - intros sg. rewrite zev_VS. apply zev_eq. simpl. unfold ev. simpl. ring. }
      destruct Hnum as (N1 & N2 & N3).
      constructor; rewrite ?V1; auto.
      + eapply trel_dblock; eauto.
      + intros sg Hsg. rewrite N3, W3, D4. rewrite (trel_ez m inits l sg R NR FT) by apply incl_refl.
        apply Run. intros x a Hx Ea. unfold ssub.
        rewrite <- V2 in Hx. apply in_map_iff in Hx. destruct Hx as ([x' u] & Ex & Hx). simpl in Ex. subst x'.
        rewrite (subs_get_nodup R x u NR Hx). destruct (V3 _ _ Hx) as (a' & Ea' & ->).
        rewrite Ea in Ea'. injection Ea' as Ea'. subst a'.
        rewrite zev_var_plus. assert (In x V) by (rewrite <- V2; apply in_map_iff; exists (x, VE (var_plus x (inject_Z (1 - a)))); auto).
        specialize (Hsg x H). lia.
    - clear -FT. induction FT as [|i o is os H HF IH]; simpl; constructor; auto.
      destruct i as [[p|e]|]; simpl in H; [now subst| |now subst].
      destruct H as (x & c & a & -> & _ & _ & ->). simpl. eauto.
  Qed.

  (** ** general rules *)
  Definition grel (m : ndict Q) (i : option val) (o : option nat * option Q * subs) : Prop :=
    match i with
    | Some (VE e) => exists x c a, e = var_plus x (inject_Z c) /\ nd_get x m = Some (inject_Z a) /\ a <= c /\
        o = (Some x, Some (inject_Z (c - a + 1)), [(x, VE (var_plus x (inject_Z (- c))))])
    | Some (VS p) => p = inject_Z 1 /\ o = (None, Some p, [])
    | None => o = (None, None, [])
    end.
  Lemma gen_new x c : v_sub (VE (var_plus x (inject_Z c))) (v_mul (VS 2%Q) (VS (inject_Z c))) =
    VE (var_plus x (inject_Z (- c))).
  Proof.
    unfold v_sub, v_neg, v_mul, v_add, e_addS, var_plus. cbn [e_terms e_const].
    change 2%Q with (inject_Z 2). rewrite injZ_mul, injZ_opp, injZ_add. do 3 f_equal. lia.
  Qed.
  Lemma gen_entry_ok V m f i : fi V m f i -> exists o, gen_entry m i = Some o /\ grel m i o.
  Proof.
    destruct i as [[p|e]|]; cbn [gen_entry fi grel]; eauto.
    - intros [-> _]. eauto.
    - intros (x & c & a & v & -> & Ea & Ha & _).
      change (variable_restricted (var_plus x (inject_Z c))) with (Some x). cbv iota beta. rewrite Ea.
      eexists. split; [reflexivity|]. exists x, c, a. split; [reflexivity|]. split; [exact Ea|]. split; [exact Ha|].
      cbn [var_plus e_const]. fold (var_plus x (inject_Z c)). rewrite gen_new.
      unfold Qminus. change 1%Q with (inject_Z 1) at 1. rewrite injZ_opp, !injZ_add. reflexivity.
  Qed.

  Lemma grel_vars m inits l : Forall2 (grel m) inits l ->
    flat_map ovar (map (fun e => fst (fst e)) l) = flat_map nvars inits /\
    map fst (concat (map snd l)) = flat_map nvars inits /\
    (forall x u, In (x, u) (concat (map snd l)) -> exists c a,
       In (Some x, Some (inject_Z (c - a + 1))) (map fst l) /\
       nd_get x m = Some (inject_Z a) /\ u = VE (var_plus x (inject_Z (- c)))).
  Proof.
    induction 1 as [|i o is os H HF (I1 & I2 & I3)]; [simpl; tauto|].
    assert (Hm : forall x u, In (x, u) (concat (map snd os)) -> exists c a,
       In (Some x, Some (inject_Z (c - a + 1))) (map fst (o :: os)) /\
       nd_get x m = Some (inject_Z a) /\ u = VE (var_plus x (inject_Z (- c)))).
    { intros x u Hx. destruct (I3 x u Hx) as (c & a & A & B). exists c, a. simpl. auto. }
    destruct i as [[p|e]|]; cbn [grel] in H.
    - destruct H as [-> ->]. simpl in *. auto.
    - destruct H as (x & c & a & -> & Ea & Ha & ->). cbn [map fst snd concat flat_map nvars app ovar] in *.
      rewrite !var_vars. simpl app. rewrite I1. split; [reflexivity|]. split; [simpl; now rewrite I2|].
      intros y u [E|Hy]; [|eauto]. injection E as <- <-. exists c, a. simpl. auto.
    - subst o. simpl in *. auto.
  Qed.
  Lemma grel_cnt m inits l sg R : NoDup (map fst R) -> Forall2 (grel m) inits l ->
    incl (concat (map snd l)) R -> map (cnt sg) (map fst l) = ez (ssub sg R) inits.
  Proof.
    intros ND. induction 1 as [|i o is os H HF IH]; intros Hi; [reflexivity|].
    assert (Hi2 : incl (concat (map snd os)) R).
    { intros x Hx. apply Hi. simpl. apply in_or_app. auto. }
    cbn [map ez]. change (map (option_map (zev (ssub sg R))) is) with (ez (ssub sg R) is).
    f_equal; auto. destruct i as [[p|e]|]; cbn [grel] in H.
    - destruct H as [-> ->]. cbn [fst cnt option_map]. now rewrite zev_VS.
    - destruct H as (x & c & a & -> & Ea & Ha & ->). cbn [fst cnt option_map]. f_equal.
      rewrite !zev_var_plus. unfold ssub.
      rewrite (subs_get_nodup R x (VE (var_plus x (inject_Z (- c))))); auto.
      + rewrite zev_var_plus. lia.
      + apply Hi. simpl. auto.
    - subst o. reflexivity.
  Qed.

  Lemma diff_same x c d :
    num_scalar (diff_num (Some (VE (var_plus x (inject_Z d))), Some (VE (var_plus x (inject_Z c))))) = true.
  Proof.
    cbn [diff_num]. unfold v_sub, v_neg, v_add, e_mulS, var_plus. change (qz (-1)) with false.
    cbn [e_terms e_const map t_vars t_coef]. unfold e_add. cbn [e_terms term_sum].
    unfold compare_terms. cbn [t_vars length]. rewrite Nat.ltb_irrefl. cbn [compare_vps].
    rewrite !Nat.ltb_irrefl. cbn [t_coef]. change (qz (1 + 1 * -1)) with true. reflexivity.
  Qed.

  (** results of the substitution *)
  Definition rrel (V : list nat) (R : subs) (f r : option val) : Prop :=
    match f, r with
    | None, None => True
    | Some v, Some w => v_subst v R = Some w /\ lv w /\ incl (v_variables w) V /\
                        forall sg, zev sg w = zev (ssub sg R) v
    | _, _ => False
    end.

  (** [Linear_Rule.try_gen] and [Exponential_Rule.try_gen] succeed only for difference rules *)
  Lemma linear_is_diff V m R finals inits l result :
    (forall x u, In x V -> subs_get x R = Some u -> forall y, In y (v_variables u) -> y = x) ->
    (forall x, In x V -> exists u, subs_get x R = Some u) ->
    lsubs R ->
    Forall2 (fi V m) finals inits -> Forall2 (grel m) inits l -> Forall2 (rrel V R) finals result ->
    forallb linear_shape (combine (map (fun e => fst (fst e)) l) result) = true ->
    forallb num_scalar (map diff_num (combine finals inits)) = true.
  Proof.
    intros HR HR2 LR H. revert l result.
    induction H as [|f i fs is Hf HF IH]; intros l result Hl Hr; [reflexivity|].
    inversion Hl as [|? o ? os Ho Hos]; subst. inversion Hr as [|? r ? rs Hr1 Hr2]; subst.
    cbn [map combine forallb]. rewrite !andb_true_iff. intros [L1 L2]. split; [|eauto].
    destruct i as [[p|e]|]; cbn [fi grel] in *.
    - destruct Hf as [-> ->]. reflexivity.
    - destruct Hf as (x & c & a & v & -> & Ea & Ha & -> & Hv & Hi).
      destruct Ho as (x' & c' & a' & E & _ & _ & ->). injection E as Ex Ec. subst x'.
      simpl in Hr1. destruct r as [w|]; [|contradiction]. destruct Hr1 as (Ew & Lw & _ & _).
      cbn [fst linear_shape] in L1. destruct w as [|e]; [discriminate|].
      destruct (nodup Nat.eq_dec (v_variables (VE e))) as [|y [|]] eqn:En; try discriminate.
      apply andb_true_iff in L1. destruct L1 as [L1 _]. apply Nat.eqb_eq in L1. subst y.
      assert (Hx : In x (v_variables (VE e))) by (apply (nodup_In Nat.eq_dec); rewrite En; simpl; auto).
      destruct (av_nform _ _ Hv) as [(z & -> & _)|(y & d & ->)].
      + simpl in Ew. discriminate.
      + destruct (v_subst_vars _ _ _ x (var_plus_lin y d) LR Ew Hx) as (y' & Hy & Hm).
        rewrite var_vars in Hy. destruct Hy as [<-|[]].
        assert (Hy : In y V) by (apply Hi; rewrite var_vars; simpl; auto).
        destruct (HR2 y Hy) as (u & Eu). rewrite Eu in Hm. rewrite (HR y u Hy Eu x Hm). apply diff_same.
    - subst f. reflexivity.
  Qed.

  Lemma combine_map {A B C} (f : A -> B) (g : A -> C) l : combine (map f l) (map g l) = map (fun a => (f a, g a)) l.
  Proof. induction l; simpl; congruence. Qed.

  Lemma rrel_ez V R sg finals result : Forall2 (rrel V R) finals result -> ez sg result = ez (ssub sg R) finals.
  Proof.
    induction 1 as [|f r fs rs H HF IH]; [reflexivity|]. cbn [ez map]. f_equal; auto.
    destruct f as [v|], r as [w|]; simpl in H; try contradiction; auto.
    destruct H as (_ & _ & _ & H). simpl. now rewrite H.
  Qed.

  Lemma gblock_all V m R finals inits : Forall2 (fi V m) finals inits -> forall l result,
    Forall2 (grel m) inits l -> Forall2 (rrel V R) finals result ->
    Forall2 (gblock V) (map fst l) result.
  Proof.
    induction 1 as [|f i fs is Hf HF IH]; intros l result FG FR.
    - inversion FG; subst. inversion FR; subst. constructor.
    - inversion FG as [|? o ? os Ho Hos]; subst. inversion FR as [|? r ? rs Hr1 Hr2]; subst.
      simpl map. constructor; [|auto].
      destruct i as [[p|e]|]; cbn [fi grel] in *.
      + destruct Hf as [-> ->]. destruct Ho as [_ ->]. simpl. simpl in Hr1.
        destruct r as [w|]; [|contradiction]. destruct Hr1 as (E & _). injection E as <-. auto.
      + destruct Hf as (x & c & a & v & -> & Ea & Ha & -> & Hv & Hi).
        destruct Ho as (x' & c' & a' & E & _ & Ha' & ->). simpl in Hr1. destruct r as [w|]; [|contradiction].
        destruct Hr1 as (_ & Lw & Iw & _). cbn [gblock fst]. split; auto. split; auto.
        exists (c' - a' + 1). split; auto. lia.
      + subst f o. simpl in Hr1. destruct r; [contradiction|]. exact I.
  Qed.

  Lemma make_gen_ok sh q finals inits m s seen :
    let V := flat_map nvars inits in
    ginv M V m s -> NoDup V -> s_seen s = Some seen ->
    Forall2 (fi V m) finals inits ->
    forallb num_scalar (map diff_num (combine finals inits)) = false ->
    (forall sg, on_valid V m sg ->
       trans_ok T M Rp q (mk sh (ez sg inits)) (mk sh (ez sg finals))
                (zev sg (s_steps s)) (ed sg seen)) ->
    exists vars mins result inf num seen',
      make_gen inits finals m s seen = Some (RGen vars mins result inf num seen') /\
      gen_ok sh q vars mins result inf num seen' /\
      Forall2 (fun i vm => match i with
                           | Some (VE _) => exists x z, vm = (Some x, Some z)
                           | Some (VS p) => vm = (None, Some p)
                           | None => vm = (None, None)
                           end) inits (combine vars mins).
  Proof.
    intros V GI ND Es F Nd Run. unfold make_gen.
    destruct (map_opt_ok (grel m) (gen_entry m) inits) as (l & -> & FG).
    { intros i Hi. destruct (Forall2_in_l _ _ _ _ (Forall2_flip _ _ _ F) Hi) as (f & _ & Hf). eapply gen_entry_ok; eauto. }
    cbn zeta. set (R := concat (map snd l)).
    destruct (grel_vars m inits l FG) as (V1 & V2 & V3). fold V in V1, V2. fold R in V2, V3.
    assert (LR : lsubs R).
    { apply Forall_forall. intros [x u] Hx. destruct (V3 _ _ Hx) as (c & a & _ & _ & ->). apply var_plus_lin. }
    assert (NR : NoDup (map fst R)) by (rewrite V2; exact ND).
    assert (HR : forall x u, In x V -> subs_get x R = Some u -> forall y, In y (v_variables u) -> y = x).
    { intros x u _ E y Hy. apply subs_get_In in E. destruct (V3 _ _ E) as (c & a & _ & _ & ->).
      rewrite var_vars in Hy. simpl in Hy. intuition. }
    assert (HR2 : forall x, In x V -> exists u, subs_get x R = Some u).
    { intros x Hx. rewrite <- V2 in Hx. apply in_map_iff in Hx. destruct Hx as ([x' u] & Ex & Hx).
      simpl in Ex. subst x'. exists u. now apply subs_get_nodup. }
    assert (HF : exists result, map_opt (inf_opt (fun v => v_subst v R)) finals = Some result /\
                                Forall2 (rrel V R) finals result).
    { apply map_opt_ok. intros f Hf. destruct (Forall2_in_l _ _ _ _ F Hf) as (i & _ & Hfi).
      destruct f as [v|]; simpl.
      - assert (Hv : lv v /\ incl (v_variables v) V).
        { destruct i as [[p|e]|]; simpl in Hfi.
          - destruct Hfi as [_ E]. injection E as ->. split; [apply VS_lin|intros x []].
          - destruct Hfi as (x & c & a & v' & _ & _ & _ & E & Hv & Hi). injection E as ->.
            split; auto. eapply nform_lin, av_nform; eauto.
          - discriminate. }
        destruct Hv as [Lv Hi].
        destruct (num_subst_ok V v R LR Lv Hi HR) as (w & E & W). rewrite E. exists (Some w). simpl. auto.
      - exists None. simpl. auto. }
    destruct HF as (result & -> & FR).
    destruct (num_subst_ok V (s_steps s) R LR (gi_steps _ _ _ _ GI) (gi_svars _ _ _ _ GI) HR)
      as (w & -> & W1 & W2 & W3).
    destruct (gi_seen _ _ _ _ GI) as (seen0 & E0 & S1 & S2 & S3). rewrite Es in E0. injection E0 as <-.
    destruct (seen_subst_ok V seen R LR S1 S2 S3 HR) as (seen' & -> & D1 & D2 & D3 & D4).
    destruct (forallb linear_shape (combine (map (fun e => fst (fst e)) l) result)) eqn:El.
    { rewrite (linear_is_diff V m R finals inits l result HR HR2 LR F FG FR El) in Nd. discriminate. }
    assert (Ev : forallb (vars_valid (map (fun e => fst (fst e)) l)) result = true).
    { apply forallb_forall. intros r Hr.
      destruct (Forall2_in_l _ _ _ _ (Forall2_flip _ _ _ FR) Hr) as (f & _ & Hfr).
      destruct r as [w'|]; simpl; auto. destruct f as [v|]; simpl in Hfr; [|contradiction].
      destruct Hfr as (_ & _ & Hi & _). apply forallb_forall. intros x Hx. apply existsb_exists.
      apply Hi in Hx. rewrite <- V1 in Hx. apply in_flat_map in Hx. destruct Hx as (o & Ho & Hx).
      destruct o as [y|]; simpl in Hx; [|tauto]. destruct Hx as [<-|[]]. exists (Some y).
      split; auto. apply Nat.eqb_refl. }
    rewrite Ev. do 6 eexists. split; [reflexivity|].
    assert (Ec : combine (map (fun e => fst (fst e)) l) (map (fun e => snd (fst e)) l) = map fst l).
    { rewrite combine_map. apply map_ext. intros [[? ?] ?]. reflexivity. }
    rewrite Ec. split.
    - constructor; rewrite ?Ec, ?V1; auto.
      + now rewrite !map_length.
      + eapply gblock_all; eauto.
      + intros sg Hsg. rewrite W3, D4. rewrite (grel_cnt m inits l sg R NR FG) by apply incl_refl.
        rewrite (rrel_ez V R sg finals result FR). apply Run. intros x a Hx Ea. unfold ssub.
        rewrite <- V2 in Hx. apply in_map_iff in Hx. destruct Hx as ([x' u] & Ex & Hx). simpl in Ex. subst x'.
        rewrite (subs_get_nodup R x u NR Hx). destruct (V3 _ _ Hx) as (c & a' & Hin & Ea' & ->).
        rewrite Ea in Ea'. injection Ea' as Ea'. subst a'.
        rewrite zev_var_plus. specialize (Hsg x _ Hin). lia.
    - clear -FG. induction FG as [|i o is os H HF IH]; simpl; constructor; auto.
      destruct i as [[p|e]|]; cbn [grel] in H.
      + destruct H as [_ ->]. reflexivity.
      + destruct H as (x & c & a & -> & _ & _ & ->). simpl. eauto.
      + subst o. reflexivity.
  Qed.

  Lemma prove_rule_ok next t q c delta : wf t -> Rp (den t q) c -> (1 <= delta)%nat ->
    exists nx o, prove_rule M next t q delta = Some (nx, o) /\
      match o with Some r => rule_ok (strip_config z_is1 q t) r | None => True end.
  Proof.
    intros W R Hdelta. unfold prove_rule.
    destruct (gen_nums_ok (nums t) (wf_pos M t W) next) as (nx & inits & m0 & E & _).
    rewrite E.
    destruct (loop_ok Gd T M Rp halted MS SW PU t q c next nx inits m0 delta W R E) as (Hi & ND & NX & L).
    destruct (gen_loop M delta (gen_sim0 t q inits) m0) as [| |[s m]];
      [congruence|do 2 eexists; split; [reflexivity|exact I]|].
    destruct (L s m eq_refl) as (Lm & GI & Run). clear L NX.
    destruct (key_eqb M (strip_config v_is1 (s_state s) (s_tape s)) (strip_config z_is1 q t)) eqn:Ek; simpl negb; cbv iota;
      [|do 2 eexists; split; [reflexivity|exact I]].
    apply (key_eqb_eq M (ms_sym_eq _ _ _ _ _ MS) (ms_st_eq _ _ _ _ _ MS)) in Ek.
    pose proof (gi_form _ _ _ _ GI) as Fm.
    destruct (strip_same i0 _ _ _ _ _ _ (tform_bform _ _ _ Fm) (twf_bform _ _ W) Ek) as (Eq & Esh & Fr).
    pose proof (tform_nums _ m _ Fm (gi_vars _ _ _ _ GI)) as Fn.
    set (V := flat_map nvars inits) in *.
    assert (FI : Forall2 (fi V m) (nums (s_tape s)) inits).
    { pose proof (Forall2_left _ _ _ _ Fn (Forall2_trans _ _ _ _ _ Fr Hi)) as G0.
      eapply Forall2_impl; [|exact G0]. intros f i (H1 & n & H2 & H3). eapply fi_make; eauto. }
    destruct (gi_seen _ _ _ _ GI) as (seen & Es & _). rewrite Es.
    assert (Run' : forall sg, on_valid V m sg ->
       trans_ok T M Rp q (mk (shape t) (ez sg inits)) (mk (shape t) (ez sg (nums (s_tape s))))
                (zev sg (s_steps s)) (ed sg seen)).
    { intros sg Hv. destruct (Run sg Hv) as [R1 R2]. rewrite et_self, Esh in R1, R2. split; [exact R1|].
      intros c0 R0. destruct (R2 c0 R0) as (P1 & c' & d & P2 & P3 & P4 & P5). rewrite Es in P4. injection P4 as <-.
      split; [lia|]. exists c'. split; [exact P2|]. split; [rewrite <- Eq; exact P3|exact P5]. }
    assert (Al : forall t' q', wf t' -> strip_config z_is1 q' t' = strip_config z_is1 q t ->
      q' = q /\ shape t' = shape t /\
      Forall2 (fun i n => dalign i n /\ match i, n with Some (VS _), Some n => n = 1 | _, _ => True end) inits (nums t')).
    { intros t' q' W' E'. destruct (strip_same i0 _ _ _ _ _ _ (twf_bform _ _ W') (twf_bform _ _ W) E') as (A1 & A2 & A3).
      split; [exact A1|]. split; [exact A2|]. apply Forall2_flip.
      pose proof (Forall2_left _ _ _ _ (wf_pos M t' W') (Forall2_trans _ _ _ _ _ A3 Hi)) as G0.
      eapply Forall2_impl; [|exact G0]. intros n i (H1 & n' & H2 & H3).
      destruct n' as [z'|]; simpl in H3.
      - destruct n as [z|]; simpl in H2; [|contradiction]. unfold z_is1 in H2.
        destruct (z' =? 1); [subst i; simpl; apply Z.eqb_eq in H2; now subst|].
        destruct H3 as (x & k & -> & _). split; [exact H1|exact I].
      - destruct n; simpl in H2; [contradiction|]. subst i. split; exact I. }
    destruct (forallb num_scalar (map diff_num (combine (nums (s_tape s)) inits))) eqn:Ed.
    - destruct (diffs_ok V m _ _ FI Ed) as [D1 D2].
      destruct (gi_seen _ _ _ _ GI) as (seen0 & Es0 & S1 & S2 & S3). rewrite Es in Es0. injection Es0 as <-.
      destruct (make_diff_ok (shape t) q inits _ m s seen (gi_steps _ _ _ _ GI) (gi_svars _ _ _ _ GI)
                  S1 S2 S3 ND D1) as (ti & num & seen' & -> & K1 & K2).
      { intros sg Hv. rewrite <- D2. now apply Run'. }
      do 2 eexists. split; [reflexivity|]. exists (shape t), q. split; [|exact K1].
      intros t' q' W' E'. destruct (Al t' q' W' E') as (A1 & A2 & A3). split; [auto|]. split; [auto|].
      clear -A3 K2. revert K2. generalize ti. induction A3 as [|i n is ns H HF IH]; intros l Hl; inversion Hl; subst; constructor; auto.
      destruct H as [H _]. destruct i as [[|]|]; [subst; auto| |subst; auto]. destruct H2 as [e' ->]. destruct n; auto.
    - destruct (make_gen_ok (shape t) q (nums (s_tape s)) inits m s seen GI ND Es FI Ed Run')
        as (vars & mins & result & inf & num & seen' & -> & K1 & K2).
      do 2 eexists. split; [reflexivity|]. exists (shape t), q. split; [|exact K1].
      intros t' q' W' E'. destruct (Al t' q' W' E') as (A1 & A2 & A3). split; [auto|]. split; [auto|].
      clear -A3 K2. revert K2. generalize (combine vars mins).
      induction A3 as [|i n is ns H HF IH]; intros l Hl; inversion Hl; subst; constructor; auto.
      destruct H as [H H']. destruct i as [[|]|]; [subst y|destruct H2 as (x & z & ->)|subst y]; destruct n; auto.
  Qed.
End Make.
