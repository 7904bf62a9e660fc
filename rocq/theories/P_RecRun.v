(** * The recursive prover with trusted rules *)
Require Import ZArith List Lia Bool Arith QArith Qround.
From Verif Require Import Spec_TM M_Turing_Machine P_Stream P_SimLimited P_Macro P_Pump
     M_Expr P_Expr M_Tape M_Simulator P_Tape P_Simulator M_Settings P_Settings M_Prover M_ProverRec P_Lin P_GenSim P_Form
     P_GenLoop P_Nums P_Rule P_MakeRule P_Apply P_ProverRun P_Series P_RecVal P_RecSim P_RecApply.
Import ListNotations.
Open Scope Z_scope.

(** ** which recorded rules are trusted *)
Definition int_q (q : Q) : bool := match q_int q with Some _ => true | None => false end.
Definition int_quadratic (v : val) : bool :=
  match v with
  | VS q => int_q q
  | VE e => int_q (e_const e) && forallb (fun t => int_q (t_coef t) && Nat.leb (tdeg (t_vars t)) 2) (e_terms e)
  end.
Definition trusted_rule (r : rrule) : bool :=
  if rr_meta r then
    match rr_rule r with RDiff _ _ num _ => int_quadratic num | _ => false end
  else true.

Lemma int_q_is q : int_q q = true -> is_int q.
Proof.
  unfold int_q, q_int. destruct (Pos.eqb (Qden (Qred q)) 1) eqn:E; [|discriminate]. intros _.
  apply Pos.eqb_eq in E. exists (Qnum (Qred q)). rewrite <- (Qred_correct q) at 1.
  destruct (Qred q) as [a b]. simpl in *. subst b. reflexivity.
Qed.
Lemma int_quadratic_i v : val_srt v -> int_quadratic v = true -> ipoly 2 v.
Proof.
  destruct v as [q|e]; simpl; [intros _; apply int_q_is|].
  intros Hs. rewrite andb_true_iff, forallb_forall. intros [A B]. split; [now apply int_q_is|].
  unfold expr_srt in Hs. rewrite Forall_forall in *. intros t Ht. specialize (B t Ht). apply andb_true_iff in B.
  destruct B as [B C]. apply Nat.leb_le in C. split; [auto|]. split; [now apply int_q_is|exact C].
Qed.

(** ** variables of the rules made from a proof *)
Lemma make_diff_vars {Sym St} m inits diffs (s : sim val Sym St) seen ti d n sn : Forall2 (dblock0 m) inits diffs ->
  make_diff inits diffs m s seen = Some (RDiff ti d n sn) -> flat_map nvars ti = flat_map nvars inits.
Proof.
  intros D. unfold make_diff.
  destruct (map_opt_ok (trel m) (tighten m) inits) as (l & -> & FT).
  { intros i Hi. destruct (Forall2_in_l _ _ _ _ D Hi) as (d' & _ & Hd). eapply tighten_ok; eauto. }
  destruct (trel_vars m inits l FT) as (V1 & _). cbn zeta. intros E.
  repeat match type of E with (match ?x with _ => _ end) = _ => destruct x; try discriminate end.
  apply some_inj in E. injection E as <- _ _ _. exact V1.
Qed.
Lemma make_gen_vars {Sym St} V m finals inits (s : sim val Sym St) seen vars mins result inf num sn :
  Forall2 (fi V m) finals inits ->
  make_gen inits finals m s seen = Some (RGen vars mins result inf num sn) -> flat_map ovar vars = flat_map nvars inits.
Proof.
  intros F. unfold make_gen.
  destruct (map_opt_ok (grel m) (gen_entry m) inits) as (l & -> & FG).
  { intros i Hi. destruct (Forall2_in_l _ _ _ _ (Forall2_flip _ _ _ F) Hi) as (f & _ & Hf). eapply gen_entry_ok; eauto. }
  destruct (grel_vars m inits l FG) as (V1 & _). cbn zeta. intros E.
  repeat match type of E with (match ?x with _ => _ end) = _ => destruct x; try discriminate end.
  apply some_inj in E. injection E as <- _ _ _ _ _. exact V1.
Qed.
Lemma make_gen_eq {Sym St} inits finals m (s : sim val Sym St) seen r :
  make_gen inits finals m s seen = Some r -> make_gen_v inits finals m s seen = Some r.
Proof.
  unfold make_gen, make_gen_v. destruct (map_opt (gen_entry m) inits) as [l|]; [|discriminate]. cbn zeta.
  destruct (map_opt _ finals) as [result|]; [|discriminate].
  destruct (v_subst (s_steps s) _) as [st|]; [|discriminate].
  destruct (seen_map_opt _ seen) as [sn|]; [|discriminate].
  destruct (forallb linear_shape _); [discriminate|]. auto.
Qed.

(** how the counts of the tape of the proof fit the blocks of a difference rule *)
Definition ralign (i : option val) (n : option Z) : Prop :=
  match i, n with
  | None, None => True
  | Some (VS p), Some n => p = inject_Z 1 /\ n = 1
  | Some (VE _), Some n => True
  | _, _ => False
  end.

Lemma Forall2_comp {A B C} (P : A -> B -> Prop) (Q : C -> B -> Prop) (R : A -> C -> Prop) l1 l2 l3 :
  (forall a b c, P a b -> Q c b -> R a c) -> Forall2 P l1 l2 -> Forall2 Q l3 l2 -> Forall2 R l1 l3.
Proof.
  intros H F. revert l3. induction F; intros l3 G; inversion G; subst; constructor; eauto.
Qed.
Lemma Forall2_left' {A B} (P : A -> Prop) (R : A -> B -> Prop) l l' : Forall P l -> Forall2 R l l' ->
  Forall2 (fun a b => P a /\ R a b) l l'.
Proof. intros F G. induction G; inversion F; subst; constructor; auto. Qed.

Section RecRun.
  Context {Sym St : Type}.
  Variables (Gd : Prop) (T : table) (M : machine Sym St) (Rp : dcfg Sym St -> config -> Prop)
            (halted : St -> Prop).
  Hypothesis MS : msound Gd T M Rp halted.
  Hypothesis SW : seen_wf M Rp.
  Hypothesis PU : pumpable Rp.
  Notation i0 := (m_init_sym M).
  Notation wf := (twf i0).
  Notation wf0 := (twf0 i0).
  Notation den := (tden i0).

  (** ** recorded rules that are true *)
  Definition rrule_ok (next : nat) (k : key) (r : rrule) : Prop :=
    exists t0 q0, wf t0 /\ k = strip_config z_is1 q0 t0 /\
      match rr_rule r with
      | RDiff inits diffs num seen =>
        rdiff_ok T M Rp (shape t0) q0 inits diffs num seen /\ ipoly 2 num /\
        (forall x, In x (flat_map nvars inits) -> (x < next)%nat) /\ Forall2 ralign inits (nums t0)
      | RGen vars mins result inf num seen =>
        gen_ok T M Rp (shape t0) q0 vars mins result inf num seen /\
        (forall x, In x (flat_map ovar vars) -> (x < next)%nat) /\ Forall2 galign (combine vars mins) (nums t0)
      end.
  Lemma rrule_ok_mono next next' k r : (next <= next')%nat -> rrule_ok next k r -> rrule_ok next' k r.
  Proof.
    intros H (t0 & q0 & A & B & C). exists t0, q0. split; [exact A|]. split; [exact B|].
    destruct (rr_rule r).
    - destruct C as (C1 & C2 & C3 & C4). split; [exact C1|]. split; [exact C2|]. split; [|exact C4]. intros x Hx. specialize (C3 x Hx). lia.
    - destruct C as (C1 & C2 & C3). split; auto. split; auto. intros x Hx. specialize (C2 x Hx). lia.
  Qed.

  (** counts of a symbolic tape *)
  Lemma tform_cv W t : tform i0 (cv W) t -> Forall (fun o => match o with Some v => cv W v | None => True end) (nums t).
  Proof.
    intros [A B]. apply nums_forall.
    assert (G : forall h, hform i0 (cv W) h -> Forall (fun o => match o with Some v => cv W v | None => True end) (map k_num h)).
    { induction 1; simpl; constructor; auto. }
    auto.
  Qed.

  Lemma apply_rule_v_next mr next r t nx o : apply_rule_v (Sym := Sym) mr next r t = Some (nx, o) -> (next <= nx)%nat.
  Proof.
    destruct r; simpl.
    - unfold apply_diff_rule_v. intros E.
      repeat match type of E with (match ?x with _ => _ end) = _ => destruct x; try discriminate end;
      apply some_inj in E; injection E as <- _; lia.
    - destruct (apply_general_rule_v _ _ _ _ _ _ _ _); [|discriminate]. intros E. apply some_inj in E. injection E as <- _. lia.
  Qed.

  Lemma apply_rule_v_ok mr a W next k r t q nx res large : rrule_ok a k r ->
    (forall x, In x W -> (a <= x < next)%nat) ->
    tform i0 (cv W) t -> strip_config v_is1 q t = k ->
    apply_rule_v mr next (rr_rule r) t = Some (nx, Some (res, large)) -> vres_ok T M Rp W t q res.
  Proof.
    intros (t0 & q0 & W0 & Ek & H) HW Ft E Ea. subst k.
    destruct (strip_same i0 _ _ _ _ _ _ (tform_bform _ _ _ Ft) (twf_bform _ _ W0) E) as (-> & Esh & Fr).
    pose proof (Forall2_left' _ _ _ _ (tform_cv W t Ft) Fr) as Fr'.
    destruct (rr_rule r) as [inits diffs num seen|vars mins result inf num seen]; simpl in Ea.
    - destruct H as (H1 & H2 & H3 & H4).
      eapply (vapply_diff_ok Gd T M Rp halted MS); [exact H1|exact H2| |exact Ft|exact Esh| |exact Ea].
      + intros x Hx. specialize (HW x Hx). split; [lia|]. intros Hi. specialize (H3 x Hi). lia.
      + eapply Forall2_comp; [|exact H4|exact Fr']. intros i n v Hi [Hv Hf].
        destruct i as [[p|e]|], n as [z|], v as [v|]; simpl in *; try contradiction; auto.
        destruct Hi as [-> ->]. split; auto. split; auto. now apply v_is1_zev.
    - destruct H as (H1 & H2 & H3).
      destruct (apply_general_rule_v mr vars mins result inf num seen t) as [o|] eqn:Eg; [|discriminate].
      cbn [option_map] in Ea. apply some_inj in Ea. injection Ea as _ ->.
      eapply (vapply_gen_ok Gd T M Rp halted MS); [exact H1| | |exact Ft|exact Esh| |exact Eg].
      + pose proof (Forall2_length' _ _ _ H3) as L. rewrite combine_length, nums_len in L.
        pose proof (go_len _ _ _ _ _ _ _ _ _ _ _ H1). lia.
      + intros x Hx Hi. specialize (HW x Hx). specialize (H2 x Hi). lia.
      + eapply Forall2_comp; [|exact H3|exact Fr']. intros [x m] n v Hi [Hv Hf].
        destruct x, m, n as [z|], v as [v|]; simpl in *; try contradiction; auto.
        subst z. split; auto. now apply v_is1_zev.
  Qed.

  (** ** one step of the general simulation *)
  Definition jinv (W : list nat) (t0 : ctape val Sym) (q0 : St) (k : Z) (s : sim val Sym St) : Prop :=
    rform M W s /\ forall sg c0, NN sg -> Rp (den (et sg t0) q0) c0 ->
      gsnap T M Rp sg c0 s /\ wf0 (et sg (s_tape s)) /\ k <= zev sg (s_steps s).

  Lemma ed_merge sg base (new : ndict val) : iat sg base -> Forall (fun kv => iat sg (snd kv)) new -> forall d,
    ed sg (fold_left (fun d kv => nd_set (fst kv) (v_add base (snd kv)) d) new d) =
    fold_left (fun d kv => nd_set (fst kv) (zev sg base + snd kv) d) (ed sg new) (ed sg d).
  Proof.
    intros Hb. induction 1 as [|[k v] new Hv _ IH]; simpl; intros d; auto.
    simpl in Hv. rewrite IH, ed_set. cbn [snd fst]. now rewrite zev_addi by auto.
  Qed.

  Lemma sim_move_rules (s s' : sim val Sym St) : sim_move vops M s = Some s' -> s_rules s' = s_rules s.
  Proof.
    unfold sim_move. intros E.
    repeat match type of E with (match ?x with _ => _ end) = _ => destruct x; try discriminate end;
    apply some_inj in E; subst s'; reflexivity.
  Qed.
  Lemma sim_move_seen (s s' : sim val Sym St) : sim_move vops M s = Some s' -> s_seen s = None -> s_seen s' = None.
  Proof.
    unfold sim_move. intros E H.
    repeat match type of E with (match ?x with _ => _ end) = _ => destruct x; try discriminate end;
    apply some_inj in E; subst s'; simpl; unfold seen_update; rewrite ?H; reflexivity.
  Qed.

  Lemma frozen_step mr rules next s nx s' : s_op s = RUNNING ->
    sim_step vops M (frozen_apply M mr rules) (next, s) = Some (nx, s') ->
    (next <= nx)%nat /\ (s_seen s = None -> s_seen s' = None) /\
    (s_rules s' = s_rules s /\ sim_move vops M (loop_inc s) = Some s' \/
     (s_rules s < s_rules s')%nat \/ s_op s' <> RUNNING).
  Proof.
    intros Eo. unfold sim_step. rewrite Eo. simpl negb. cbv iota.
    destruct (frozen_apply M mr rules next (s_tape (loop_inc s)) (s_state (loop_inc s)) (s_loops (loop_inc s) - 1))
      as [[n res]|] eqn:Ef; [|discriminate].
    assert (Hn : (next <= n)%nat).
    { revert Ef. unfold frozen_apply. destruct (kget M _ rules); [|intros E; apply some_inj in E; injection E as <- _; lia].
      destruct (apply_rule_v mr next _ _) as [[n' [[x y]|]]|] eqn:Ea; [| |discriminate];
        intros E; apply some_inj in E; injection E as <- _; eapply apply_rule_v_next; eauto. }
    destruct res as [|t' k seen|rs].
    - destruct (sim_move vops M (loop_inc s)) as [s1|] eqn:Em; [|discriminate]. intros E. apply some_inj in E.
      injection E as <- <-. split; [exact Hn|]. split; [exact (sim_move_seen _ _ Em)|]. left.
      split; [exact (sim_move_rules _ _ Em)|reflexivity].
    - intros E. apply some_inj in E. injection E as <- <-. split; [exact Hn|].
      split; [simpl; intros ->; reflexivity|]. right. left. simpl. lia.
    - intros E. apply some_inj in E. injection E as <- <-. split; [exact Hn|].
      split; [simpl; auto|]. right. right. simpl. discriminate.
  Qed.

  Lemma jstep mr a W t0 q0 k rules next s b nx s' :
    (forall k r, In (k, r) rules -> rrule_ok a k r) -> (forall x, In x W -> (a <= x < next)%nat) ->
    jinv W t0 q0 k s -> s_op s = RUNNING -> ct_top (s_tape s) = Some b -> num_le0 (k_num b) = false ->
    sim_step vops M (frozen_apply M mr rules) (next, s) = Some (nx, s') -> s_op s' = RUNNING ->
    s_seen s' = None \/ jinv W t0 q0 (k + 1) s'.
  Proof.
    intros HR HW [Hf Hj] Eo Et Eb Es Eo'. unfold sim_step in Es. rewrite Eo in Es. simpl negb in Es. cbv iota in Es.
    destruct (frozen_apply M mr rules next (s_tape (loop_inc s)) (s_state (loop_inc s)) (s_loops (loop_inc s) - 1))
      as [[n res]|] eqn:Ef; [|discriminate].
    assert (Hv : vres_ok T M Rp W (s_tape s) (s_state s) res).
    { revert Ef. unfold frozen_apply. cbn [loop_inc s_tape s_state].
      destruct (kget M _ rules) as [r|] eqn:Ek; [|intros E; apply some_inj in E; injection E as _ <-; exact I].
      apply (kget_in Gd T M Rp halted MS) in Ek.
      destruct (apply_rule_v mr next _ _) as [[n' [[x y]|]]|] eqn:Ea; [| |discriminate];
        intros E; apply some_inj in E; injection E as _ <-; [|exact I].
      eapply apply_rule_v_ok; [eapply HR, Ek|exact HW|apply Hf|reflexivity|exact Ea]. }
    destruct res as [|t' j seen|rs].
    - destruct (sim_move vops M (loop_inc s)) as [s1|] eqn:Em; [|discriminate]. apply some_inj in Es.
      injection Es as _ <-. right.
      destruct (rmove_form M W (loop_inc s) s1 Hf Em Eo') as [Hf' _]. split; [exact Hf'|].
      intros sg c0 Hn R0. destruct (Hj sg c0 Hn R0) as (G & W0 & Hk).
      destruct (gmove0 Gd T M Rp halted MS SW sg c0 (loop_inc s)) as (s2 & Em2 & H2).
      + exact (rform_lin M W s Hf).
      + apply Hf.
      + destruct Hf as (_ & _ & Hs & _). exact (gv_iat W _ sg Hs Hn).
      + exact W0.
      + exact (num_le0_pos M W s b sg Hf Hn Et Eb).
      + exact G.
      + rewrite Em in Em2. apply some_inj in Em2. subst s2. destruct (H2 Eo') as (G' & Hl & W').
        split; [exact G'|]. split; [exact W'|]. cbn [loop_inc s_steps] in Hl. lia.
    - apply some_inj in Es. injection Es as _ <-. cbn [loop_inc s_tape s_state s_dir s_steps s_loops s_op s_details s_seen s_inf s_rules] in *.
      destruct Hv as (V1 & V2 & V3 & V4 & V5 & V6). destruct Hf as (F1 & F2 & F3 & d & F4 & F5 & F6).
      rewrite F4 in *. unfold seen_merge. destruct seen as [[|kv new]|]; [left; reflexivity| |left; reflexivity]. right.
      destruct (V5 _ eq_refl) as [Dn Nn].
      destruct (seen_merge_gv W (s_steps s) (kv :: new) F3 Dn d F5 F6) as [M1 M2].
      split.
      + split; [exact V1|]. split; [cbn [s_tape s_dir]; congruence|]. split; [cbn [s_steps n_add vops]; now apply gv_add|].
        eexists. split; [reflexivity|]. split; [exact M1|exact M2].
      + intros sg c0 Hn R0. destruct (Hj sg c0 Hn R0) as ((G1 & (c & G2 & G3) & d' & G4 & G5) & W0 & Hk).
        destruct (V6 sg Hn c G3) as (U1 & U2 & c' & U3 & U4 & U5). specialize (U5 _ eq_refl).
        assert (Ez : zev sg (v_add (s_steps s) j) = zev sg (s_steps s) + zev sg j).
        { apply zev_addi; eapply gv_iat; eauto. }
        split; [|split; [exact U1|cbn [s_steps n_add vops]; lia]].
        unfold gsnap. cbn [s_steps n_add vops s_tape s_state s_seen]. rewrite Ez.
        split; [lia|]. split.
        * exists c'. rewrite Z2Nat.inj_add by lia. split; [eapply steps_compose; eauto|exact U4].
        * eexists. split; [reflexivity|]. rewrite F4 in G4. apply some_inj in G4. subst d'.
          rewrite ed_merge; [|eapply gv_iat; eauto|eapply Forall_impl; [|exact Dn]; intros kv' Hkv; exact (gv_iat W _ sg Hkv Hn)].
          replace (zev sg (s_steps s) + zev sg j) with (zev sg (s_steps s) + Z.of_nat (Z.to_nat (zev sg j))) by lia.
          apply (zseen_merge T c0 (zev sg (s_steps s)) c (Z.to_nat (zev sg j)) (ed sg d)
                   (fun v => zev sg (s_steps s) + v) Z.to_nat (ed sg (kv :: new)) G1).
          -- rewrite ed_keys. exact Nn.
          -- exact G2.
          -- intros x v Ek. destruct (U5 x) as [Hv _]. rewrite Ek in Hv. lia.
          -- exact G5.
          -- intros x. apply (U5 x).
    - apply some_inj in Es. injection Es as _ <-. discriminate.
  Qed.

  Lemma gen_loop_v_ok mr a W t0 q0 rules : (forall k r, In (k, r) rules -> rrule_ok a k r) ->
    forall delta next s m k nx s' m', (forall x, In x W -> (a <= x < next)%nat) -> s_op s = RUNNING ->
    gen_loop_v M mr rules delta next s m = POk (nx, s', m') ->
    (next <= nx)%nat /\ (s_rules s <= s_rules s')%nat /\
    (s_rules s' = s_rules s -> gen_loop M delta s m = POk (s', m')) /\
    (s_seen s = None \/ jinv W t0 q0 k s -> s_seen s' = None \/ jinv W t0 q0 (k + Z.of_nat delta) s').
  Proof.
    intros HR. induction delta as [|delta IH]; intros next s m k nx s' m' HW Eo E; cbn [gen_loop_v gen_loop] in *.
    - injection E as <- <- <-. split; [lia|]. split; [lia|]. split; [auto|]. rewrite Z.add_0_r. auto.
    - destruct (ct_top (s_tape s)) as [b|] eqn:Et; [|discriminate].
      destruct (num_le0 (k_num b)) eqn:Eb; [discriminate|].
      destruct (sim_step vops M (frozen_apply M mr rules) (next, s)) as [[n s1]|] eqn:Es; [|discriminate].
      destruct (cond_eqb (s_op s1) RUNNING) eqn:Eo1; [|discriminate]. simpl negb in E. cbv iota in E.
      assert (Eo2 : s_op s1 = RUNNING) by (destruct (s_op s1); try discriminate; auto).
      destruct (update_min (nums (s_tape s1)) m) as [| |m1] eqn:Eu; try discriminate.
      destruct (frozen_step mr rules next s n s1 Eo Es) as (H1 & H2 & H3).
      assert (HW' : forall x, In x W -> (a <= x < n)%nat) by (intros x Hx; specialize (HW x Hx); lia).
      destruct (IH n s1 m1 (k + 1) nx s' m' HW' Eo2 E) as (I1 & I2 & I3 & I4).
      assert (H0 : (s_rules s <= s_rules s1)%nat) by (destruct H3 as [[H3 _]|[H3|H3]]; [lia|lia|congruence]).
      split; [lia|]. split; [lia|]. split.
      + intros Er. destruct H3 as [[H3 H4]|[H3|H3]]; [|lia|congruence].
        rewrite H4, Eo1. simpl negb. cbv iota. rewrite Eu. apply I3. lia.
      + intros Hs. replace (k + Z.of_nat (S delta)) with (k + 1 + Z.of_nat delta) by lia. apply I4.
        destruct Hs as [Hs|Hs]; [left; auto|].
        eapply jstep; [exact HR|exact HW|exact Hs|exact Eo|exact Et|exact Eb|exact Es|exact Eo2].
  Qed.

  (** ** a proof that used rules *)
  Definition mfi (W : list nat) (f i : option val) : Prop :=
    match i, f with
    | None, None => True
    | Some (VS p), Some v => p = inject_Z 1 /\ cv W v /\ forall sg, zev sg v = 1
    | Some (VE e), Some v => exists x c, e = var_plus x (inject_Z c) /\ 1 <= c /\ cv W v
    | _, _ => False
    end.
  Lemma meta_diffs_ok W finals inits : Forall2 (mfi W) finals inits ->
    let diffs := map diff_num (combine finals inits) in
    forallb num_scalar diffs = true ->
    Forall2 dblock inits diffs /\ forall sg, ez sg finals = addk 1 (ez sg inits) diffs.
  Proof.
    induction 1 as [|f i fs is Hf HF IH]; simpl; intros Hs.
    - split; [constructor|reflexivity].
    - apply andb_true_iff in Hs. destruct Hs as [Hs1 Hs2]. destruct (IH Hs2) as [I1 I2].
      destruct i as [i|]; cbn [mfi] in Hf.
      2:{ destruct f; [contradiction|]. split; [constructor; [exact I|exact I1]|]. intros sg. unfold addk. simpl. f_equal. apply I2. }
      destruct f as [v|]; [|destruct i; contradiction].
      assert (Lv : lv v /\ lv i).
      { destruct i as [p|e]; [destruct Hf as (-> & [Hv _] & _); split; [exact Hv|apply VS_lin]|].
        destruct Hf as (x & c & -> & _ & [Hv _]). split; [exact Hv|apply var_plus_lin]. }
      destruct Lv as [Lv Li].
      pose proof (norm_const _ (v_sub_lin _ _ Lv Li)) as [N1 N2]. cbn zeta in N1, N2.
      cbn [diff_num] in *.
      destruct (match v_sub v i with
                | VS q => VS q | VE e => if e_is_const e then VS (e_const e) else VE e end) as [q|] eqn:Ed;
        [|simpl in Hs1; discriminate].
      destruct N1 as [z ->].
      assert (Hz : forall sg, zev sg v = zev sg i + z).
      { intros sg. specialize (N2 sg). rewrite zev_VS, zev_sub in N2 by auto. lia. }
      split.
      + constructor; auto. destruct i as [p|e]; cbn [dblock].
        * destruct Hf as (-> & _ & H1). split; [exists 1; split; [reflexivity|lia]|].
          specialize (Hz (fun _ => 0)). rewrite H1, zev_VS in Hz. replace z with 0 by lia. reflexivity.
        * destruct Hf as (x & c & -> & Hc & _). exists x, c, z. auto.
      + intros sg. unfold addk. cbn [ez map option_map combine add1]. rewrite zev_VS.
        change (map (option_map (zev sg)) fs) with (ez sg fs). rewrite I2. f_equal. f_equal. rewrite Hz. lia.
  Qed.

  Lemma prove_v_ok mr rules next t q c delta nx o : wf t -> Rp (den t q) c -> (1 <= delta)%nat ->
    (forall k r, In (k, r) rules -> rrule_ok next k r) ->
    prove_rule_v M mr rules next t q delta = Some (nx, o) ->
    (next <= nx)%nat /\
    match o with Some r => trusted_rule r = true -> rrule_ok nx (strip_config z_is1 q t) r | None => True end.
  Proof.
    intros W R Hdelta HR. unfold prove_rule_v.
    destruct (gen_nums_ok (nums t) (wf_pos M t W) next) as (nx0 & inits & m0 & E & Hnx & Hk & Hrange & Hd & Hi0 & Hm).
    rewrite E.
    destruct (loop_ok Gd T M Rp halted MS SW PU t q c next nx0 inits m0 delta W R E) as (Hi & ND & NX & L).
    set (V := flat_map nvars inits) in *.
    assert (HV : forall x, In x V -> (next <= x < nx0)%nat) by (intros x Hx; apply Hrange; rewrite Hk; exact Hx).
    destruct (gen_loop_v M mr rules delta nx0 (gen_sim0 t q inits) m0) as [| |[[nx1 s] m]] eqn:El;
      [discriminate|intros E1; apply some_inj in E1; injection E1 as <- <-; split; [lia|exact I]|].
    destruct (gen_loop_v_ok mr next V (mk (shape t) inits) q rules HR delta nx0 (gen_sim0 t q inits) m0 0 nx1 s m HV eq_refl El)
      as (L1 & L2 & L3 & L4).
    destruct (key_eqb M (strip_config v_is1 (s_state s) (s_tape s)) (strip_config z_is1 q t)) eqn:Ek; simpl negb; cbv iota;
      [|intros E1; apply some_inj in E1; injection E1 as <- <-; split; [lia|exact I]].
    apply (key_eqb_eq M (ms_sym_eq _ _ _ _ _ MS) (ms_st_eq _ _ _ _ _ MS)) in Ek.
    destruct (s_seen s) as [seen|] eqn:Es; [|discriminate].
    set (diffs := map diff_num (combine (nums (s_tape s)) inits)).
    assert (Al : Forall2 ralign inits (nums t)).
    { eapply (Forall2_comp (fun i n => irel m0 n i) (fun n n' => n = n')); [|exact (Forall2_flip _ _ _ Hi)|].
      - intros i n n' H En; subst n'. unfold irel in H. destruct n as [z|]; [|subst i; exact I].
        destruct (z =? 1) eqn:E1; [apply Z.eqb_eq in E1; subst; split; reflexivity|].
        destruct H as (x & k & -> & _). exact I.
      - clear. induction (nums t); constructor; auto. }
    destruct (Nat.ltb 0 (s_rules s)) eqn:Er.
    - (* with other rules *)
      destruct (forallb num_scalar diffs) eqn:Ed.
      2:{ destruct (make_gen_v inits (nums (s_tape s)) m s seen) as [r|] eqn:Em; [|discriminate].
          intros E1. apply some_inj in E1. injection E1 as <- <-. split; [lia|].
          unfold make_gen_v in Em.
          repeat match type of Em with (match ?x with _ => _ end) = _ => destruct x; try discriminate end.
          apply some_inj in Em. subst r. cbn. discriminate. }
      intros E1. apply some_inj in E1. injection E1 as <- <-. split; [lia|]. unfold make_meta_diff.
      set (num := match s_steps s with VS q0 => VE (Expr [] q0) | VE e => VE e end) in *.
      intros Tr. unfold trusted_rule in Tr. cbn [rr_meta rr_rule] in Tr. clear L L3 NX.
      assert (J0 : jinv V (mk (shape t) inits) q 0 (gen_sim0 t q inits)).
      { split.
        - split; [|split; [|split]].
          + cbn [gen_sim0 s_tape]. apply (mk_form i0 (cv V) (fun n o => irel m0 n o /\ incl (nvars o) V) t W).
            * intros v [H _]. exact H.
            * intros z o' [H H']. unfold irel in H. destruct (z =? 1); [subst o'; eexists; split; [reflexivity|apply cv_VS]|].
              destruct H as (x & k & -> & _). eexists. split; [reflexivity|]. split; [apply var_plus_lin|exact H'].
            * eapply Forall2_impl; [|apply Forall2_flip, (Forall2_left' (fun i => In i inits)), Forall2_flip, Hi].
              -- intros n i [H1 H2]. split; [exact H2|]. unfold V. intros x Hx. apply in_flat_map. eauto.
              -- apply Forall_forall. auto.
          + reflexivity.
          + apply cv_gv. split; [split; [constructor|exists 0; reflexivity]|intros x []].
          + exists []. split; [reflexivity|]. split; constructor.
        - intros sg c0 Hn R0. change (zev sg (s_steps (gen_sim0 t q inits))) with 0.
          split; [|split; [|lia]].
          + split; [change (zev sg (s_steps (gen_sim0 t q inits))) with 0; lia|].
            change (zev sg (s_steps (gen_sim0 t q inits))) with 0. split.
            * exists c0. split; [reflexivity|exact R0].
            * exists []. split; [reflexivity|]. apply zseen_nil.
          + apply twf_0. cbn [gen_sim0 s_tape]. rewrite et_mk. apply mk_wf; [exact W|].
            clear -Hi Hn. unfold ez. induction Hi as [|n i ns is H HF IH]; simpl; constructor; auto.
            unfold irel in H. destruct n as [z|]; [|subst i; exact I].
            destruct (z =? 1); [subst i; simpl; rewrite zev_VS; lia|].
            destruct H as (x & k & -> & Hk & _). cbn [option_map]. rewrite zev_var_plus. specialize (Hn x). lia. }
      destruct (L4 (or_intror J0)) as [L5|[Jf Js]]; [discriminate|]. rewrite Z.add_0_l in Js.
      destruct Jf as (F1 & F2 & F3 & d & F4 & F5 & F6). rewrite Es in F4. apply some_inj in F4. subst d.
      destruct (strip_same i0 _ _ _ _ _ _ (tform_bform _ _ _ F1) (twf_bform _ _ W) Ek) as (Eq & Esh & Fr).
      assert (Hnum : gv V num /\ forall sg, zev sg num = zev sg (s_steps s)).
      { unfold num. destruct (s_steps s) as [p|e]; [|auto].
        assert (Ev : forall sg, (evv (rho sg) (VE (Expr [] p)) == evv (rho sg) (VS p))%Q).
        { intros sg. simpl. unfold ev. simpl. ring. }
        split; [|intros sg; unfold zev; now rewrite Ev].
        destruct F3 as (G1 & G2 & G3). split; [constructor|]. split.
        - intros sg Hn. specialize (G2 sg Hn). unfold iat in *. destruct G2 as [z G2]. exists z. now rewrite Ev.
        - intros. rewrite !Ev. auto. }
      destruct Hnum as [N1 N2].
      assert (FI : Forall2 (mfi V) (nums (s_tape s)) inits).
      { pose proof (Forall2_left' _ _ _ _ (tform_cv V _ F1) Fr) as Fr'.
        eapply Forall2_comp; [|exact Fr'|apply Forall2_flip, Hi].
        intros f n i [Hv Hf] H. unfold irel in H. destruct n as [z|]; [|subst i; destruct f; [contradiction|exact I]].
        destruct f as [v|]; [|contradiction]. simpl in Hf. unfold z_is1 in Hf.
        destruct (z =? 1); [subst i; split; [reflexivity|]; split; [exact Hv|now apply v_is1_zev]|].
        destruct H as (x & k & -> & Hc & _). exists x, k. split; [reflexivity|]. split; [lia|exact Hv]. }
      destruct (meta_diffs_ok V _ _ FI Ed) as [D1 D2].
      exists t, q. split; [exact W|]. split; [reflexivity|]. cbn [rr_rule]. split; [|split; [|split; [|exact Al]]].
      + constructor; [exact D1|exact ND|exact N1|split; [exact F5|exact F6]|].
        intros sg Hn c0 R0. rewrite <- et_mk in R0. destruct (Js sg c0 Hn R0) as ((G1 & (c' & G2 & G3) & d & G4 & G5) & W0 & Hs).
        rewrite Es in G4. apply some_inj in G4. subst d. unfold diffs. rewrite <- D2, <- Esh, <- et_self, N2.
        split; [exact W0|]. split; [lia|]. exists c'. split; [exact G2|]. split; [rewrite <- Eq; exact G3|exact G5].
      + apply int_quadratic_i; [apply N1|exact Tr].
      + intros x Hx. specialize (HV x Hx). lia.
    - (* without *)
      assert (E0 : s_rules s = s_rules (gen_sim0 t q inits)) by (apply Nat.ltb_ge in Er; simpl; lia).
      specialize (L3 E0). destruct (L s m L3) as (Lm & GI & Run). clear L NX L4.
      pose proof (gi_form _ _ _ _ GI) as Fm.
      destruct (strip_same i0 _ _ _ _ _ _ (tform_bform _ _ _ Fm) (twf_bform _ _ W) Ek) as (Eq & Esh & Fr).
      pose proof (tform_nums M _ m _ Fm (gi_vars _ _ _ _ GI)) as Fn.
      assert (FI : Forall2 (fi V m) (nums (s_tape s)) inits).
      { pose proof (Forall2_left _ _ _ _ Fn (Forall2_trans _ _ _ _ _ Fr Hi)) as G0.
        eapply Forall2_impl; [|exact G0]. intros f i (H1 & n & H2 & H3). eapply fi_make; eauto. }
      assert (Run' : forall sg, on_valid V m sg ->
         trans_ok T M Rp q (mk (shape t) (ez sg inits)) (mk (shape t) (ez sg (nums (s_tape s))))
                  (zev sg (s_steps s)) (ed sg seen)).
      { intros sg Hv. destruct (Run sg Hv) as [R1 R2]. rewrite et_self, Esh in R1, R2. split; [exact R1|].
        intros c0 R0. destruct (R2 c0 R0) as (P1 & c' & d & P2 & P3 & P4 & P5). rewrite Es in P4. injection P4 as <-.
        split; [lia|]. exists c'. split; [exact P2|]. split; [rewrite <- Eq; exact P3|exact P5]. }
      destruct (forallb num_scalar diffs) eqn:Ed; unfold diffs in *.
      + destruct (diffs_ok V m _ _ FI Ed) as [D1 D2].
        destruct (gi_seen _ _ _ _ GI) as (seen0 & Es0 & S1 & S2 & S3). rewrite Es in Es0. injection Es0 as <-.
        destruct (make_diff_ok T M Rp (shape t) q inits _ m s seen (gi_steps _ _ _ _ GI) (gi_svars _ _ _ _ GI)
                    S1 S2 S3 ND D1) as (ti & num & seen' & Em & K1 & K2).
        { intros sg Hv. rewrite <- D2. now apply Run'. }
        rewrite Em. intros E1. apply some_inj in E1. injection E1 as <- <-. split; [lia|]. intros _.
        exists t, q. split; [exact W|]. split; [reflexivity|]. cbn [rr_rule].
        split; [now apply diff_rdiff|]. split; [|split].
        * eapply ipoly_mono; [|apply lv_i; apply (do_steps _ _ _ _ _ _ _ _ _ K1)]. lia.
        * rewrite (make_diff_vars _ _ _ _ _ _ _ _ _ D1 Em). intros x Hx. specialize (HV x Hx). lia.
        * eapply (Forall2_comp (fun o i => match i with Some (VE _) => exists e, o = Some (VE e) | _ => o = i end));
            [|apply Forall2_flip; exact K2|apply Forall2_flip; exact Al].
          intros o' i n H1 H2. destruct i as [[p|e]|]; [subst o'; exact H2| |subst o'; exact H2].
          destruct H1 as [e' ->]. destruct n; [exact I|contradiction].
      + destruct (make_gen_ok T M Rp (shape t) q (nums (s_tape s)) inits m s seen GI ND Es FI Ed Run')
          as (vars & mins & result & inf & num & seen' & Em & K1 & K2).
        rewrite (make_gen_eq _ _ _ _ _ _ Em). intros E1. apply some_inj in E1. injection E1 as <- <-. split; [lia|]. intros _.
        exists t, q. split; [exact W|]. split; [reflexivity|]. cbn [rr_rule].
        split; [exact K1|]. split.
        * rewrite (make_gen_vars _ _ _ _ _ _ _ _ _ _ _ _ FI Em). intros x Hx. specialize (HV x Hx). lia.
        * eapply Forall2_comp; [|apply Forall2_flip; exact K2|exact (Forall2_left' _ _ _ _ (wf_pos M t W) (Forall2_flip _ _ _ Al))].
          intros vm i n H1 [H3 H2]. destruct i as [[p|e]|]; cbn [ralign] in H2.
          -- subst vm. destruct n; [|contradiction]. destruct H2 as [_ ->]. reflexivity.
          -- destruct H1 as (x & z & ->). destruct n; [exact H3|contradiction].
          -- subst vm. destruct n; [contradiction|exact I].
  Qed.

  (** ** applying a rule to the tape of the base simulator *)
  Notation s0 := (fun _ : nat => 0).
  Lemma NN0 : NN s0.
  Proof. intros x. lia. Qed.
  Lemma half_val_et (h : list (blk Z Sym)) :
    map (eb s0) (map (fun b => Blk (k_sym b) (option_map (fun z => VS (inject_Z z)) (k_num b))) h) = h.
  Proof.
    induction h as [|[s [z|]] h IH]; simpl; auto.
    - unfold eb at 1. simpl. rewrite zev_VS. now f_equal.
    - unfold eb at 1. simpl. now f_equal.
  Qed.
  Lemma tape_val_et (t : ctape Z Sym) : et s0 (tape_val t) = t.
  Proof. destruct t as [d l r]. unfold et, tape_val. cbn [ct_dir ct_l ct_r]. now rewrite !half_val_et. Qed.
  Lemma tape_val_form t : wf t -> tform i0 (cv []) (tape_val t).
  Proof.
    assert (G : forall h, hwf i0 h ->
      hform i0 (cv []) (map (fun b => Blk (k_sym b) (option_map (fun z => VS (inject_Z z)) (k_num b))) h)).
    { induction 1; simpl; [apply hform_end|apply hform_blk; [apply cv_VS|assumption]]. }
    intros [A B]. split; apply G; assumption.
  Qed.
  Lemma v_is1_inj z : v_is1 (VS (inject_Z z)) = z_is1 z.
  Proof.
    unfold v_is1, z_is1, Qeq_bool. simpl. unfold Zeq_bool. rewrite Z.mul_1_r.
    destruct (z =? 1) eqn:E; [apply Z.eqb_eq in E; subst; reflexivity|].
    apply Z.eqb_neq in E. destruct (Z.compare_spec z 1); try reflexivity. congruence.
  Qed.
  Lemma tape_val_strip (q : St) (t : ctape Z Sym) : wf t -> strip_config v_is1 q (tape_val t) = strip_config z_is1 q t.
  Proof.
    assert (G : forall h, hwf i0 h ->
      strip_half v_is1 (map (fun b => Blk (k_sym b) (option_map (fun z => VS (inject_Z z)) (k_num b))) h) = strip_half z_is1 h).
    { induction 1 as [|s z h Hz H IH]; [reflexivity|]. cbn [map k_sym k_num option_map].
      rewrite (strip_cons i0), (strip_cons i0), v_is1_inj, IH; auto.
      - now apply hwf_bform.
      - clear -H. induction H; simpl; constructor; auto. }
    intros [A B]. unfold strip_config, tape_val. cbn [ct_dir ct_l ct_r]. now rewrite !G.
  Qed.
  Lemma v_int_zev v z : v_int v = Some z -> zev s0 v = z.
  Proof.
    destruct v as [q|e]; [|discriminate]. unfold v_int, q_int.
    destruct (Pos.eqb (Qden (Qred q)) 1) eqn:E; [|discriminate]. intros H. injection H as <-.
    apply zev_eq. simpl. apply Pos.eqb_eq in E. rewrite <- (Qred_correct q) at 1. destruct (Qred q) as [a b].
    simpl in *. subst b. reflexivity.
  Qed.
  Lemma half_int_et h : forall h', half_int (Sym := Sym) h = Some h' -> map (eb s0) h = h'.
  Proof.
    unfold half_int. induction h as [|[s n] h IH]; simpl; intros h' E; [injection E as <-; reflexivity|].
    destruct (option_map _ (inf_opt v_int n)) as [b|] eqn:Eb; [|discriminate].
    destruct (map_opt _ h) as [h2|] eqn:Eh; [|discriminate]. injection E as <-.
    rewrite (IH h2 eq_refl). f_equal. unfold eb. simpl. destruct n as [v|]; simpl in Eb.
    - destruct (v_int v) as [z|] eqn:Ez; [|discriminate]. injection Eb as <-. simpl. now rewrite (v_int_zev _ _ Ez).
    - injection Eb as <-. reflexivity.
  Qed.
  Lemma tape_int_et t t' : tape_int (Sym := Sym) t = Some t' -> et s0 t = t'.
  Proof.
    unfold tape_int. destruct (half_int (ct_l t)) as [l|] eqn:El; [|discriminate].
    destruct (half_int (ct_r t)) as [r|] eqn:Er; [|discriminate]. intros E. injection E as <-.
    unfold et. now rewrite (half_int_et _ _ El), (half_int_et _ _ Er).
  Qed.
  Lemma half_int_wf h : forall h', half_int (Sym := Sym) h = Some h' -> Forall nzb h -> hwf0 i0 (map (eb s0) h) -> hwf i0 h'.
  Proof.
    induction h as [|[s n] h IH]; intros h' E F H0; pose proof (half_int_et _ _ E) as E'; [inversion H0|].
    unfold half_int in E. cbn [map_opt] in E. cbn [k_sym k_num] in E.
    destruct (option_map _ (inf_opt v_int n)) as [b|] eqn:Eb; [|discriminate].
    destruct (map_opt _ h) as [h2|] eqn:Eh; [|discriminate]. apply some_inj in E. subst h'.
    inversion F as [|? ? F1 F2]; subst. cbn [map eb k_sym k_num] in H0, E'.
    destruct n as [v|]; cbn [option_map inf_opt] in *.
    - destruct (v_int v) as [z|] eqn:Ez; [|discriminate]. injection Eb as <-.
      inversion H0 as [|? ? ? Hz Ht]; subst. rewrite (v_int_zev _ _ Ez) in *. constructor; [|apply IH; auto].
      assert (z <> 0); [|lia]. intros ->. unfold nzb in F1. cbn [k_num n_eq0 vops] in F1.
      destruct v as [q|e]; [|discriminate]. unfold v_int, q_int in Ez.
      destruct (Pos.eqb (Qden (Qred q)) 1) eqn:E1; [|discriminate]. apply some_inj in Ez.
      assert (Hq : (q == 0)%Q).
      { rewrite <- (Qred_correct q). unfold Qeq. rewrite Ez. reflexivity. }
      unfold qz in F1. apply Qeq_bool_iff in Hq. congruence.
    - injection Eb as <-. inversion H0; subst. destruct h; [|discriminate]. simpl in Eh. injection Eh as <-. constructor.
  Qed.

  Lemma seen_int_ed d d' : seen_map_opt v_int d = Some d' -> ed s0 d = d'.
  Proof.
    unfold seen_map_opt. revert d'. induction d as [|[k v] d IH]; simpl; intros d' E; [injection E as <-; reflexivity|].
    destruct (v_int v) as [z|] eqn:Ez; [|discriminate]. cbn [option_map] in E.
    destruct (map_opt _ d) as [d2|]; [|discriminate]. injection E as <-. now rewrite (IH d2 eq_refl), (v_int_zev _ _ Ez).
  Qed.

  Lemma apply_rule_z_ok mr next k r t q c nx o : rrule_ok next k r -> wf t -> strip_config z_is1 q t = k ->
    Rp (den t q) c -> apply_rule_z mr next (rr_rule r) t = Some (nx, o) ->
    (next <= nx)%nat /\ match o with Some (res, _) => result_ok T M Rp t q c res | None => True end.
  Proof.
    intros HR W Ek R. unfold apply_rule_z.
    destruct (apply_rule_v mr next (rr_rule r) (tape_val t)) as [[n [[res large]|]]|] eqn:Ea; [| |discriminate].
    2:{ intros E. apply some_inj in E. injection E as <- <-. split; [eapply apply_rule_v_next; eauto|exact I]. }
    destruct (result_int res) as [res'|] eqn:Er; [|discriminate]. intros E. cbn [option_map] in E. apply some_inj in E.
    injection E as <- <-. split; [eapply apply_rule_v_next; eauto|].
    assert (Hv : vres_ok T M Rp [] (tape_val t) q res).
    { eapply apply_rule_v_ok; [exact HR| |apply tape_val_form, W|rewrite tape_val_strip; [exact Ek|exact W]|exact Ea].
      intros x []. }
    destruct res as [|t' n' seen|rs]; cbn [result_int] in Er.
    - apply some_inj in Er. subst res'. exact I.
    - destruct (tape_int t') as [t2|] eqn:Et; [|discriminate]. destruct (v_int n') as [z|] eqn:Ez; [|discriminate].
      destruct (inf_opt (seen_map_opt v_int) seen) as [seen'|] eqn:Es; [|discriminate]. apply some_inj in Er. subst res'.
      destruct Hv as (V1 & V2 & V3 & V4 & V5 & V6). rewrite <- (tape_val_et t) in R.
      destruct (V6 s0 NN0 c R) as (U1 & U2 & c' & U3 & U4 & U5). pose proof (tape_int_et _ _ Et) as Et'.
      rewrite (v_int_zev _ _ Ez) in *. cbn [result_ok]. split; [|split; [|split; [exact U2|split]]].
      + unfold tape_int in Et. destruct (half_int (ct_l t')) as [l|] eqn:El; [|discriminate].
        destruct (half_int (ct_r t')) as [r'|] eqn:Er; [|discriminate]. apply some_inj in Et. subst t2.
        destruct U1 as [A B]. destruct V2 as [C D]. split; cbn [ct_l ct_r].
        * eapply half_int_wf; eauto.
        * eapply half_int_wf; eauto.
      + rewrite <- Et'. exact V3.
      + exists c'. rewrite <- Et'. auto.
      + destruct seen as [d|]; cbn [inf_opt] in Es; [|apply some_inj in Es; subst seen'; exact I].
        destruct (seen_map_opt v_int d) as [d'|] eqn:Ed; [|discriminate]. apply some_inj in Es. subst seen'.
        pose proof (seen_int_ed _ _ Ed) as Ed'. destruct (V5 d eq_refl) as [_ N]. rewrite <- Ed'. split.
        * rewrite ed_keys. exact N.
        * exact (U5 d eq_refl).
    - apply some_inj in Er. subst res'. rewrite <- (tape_val_et t) in R. exact (Hv s0 c NN0 R).
  Qed.

  (** ** the prover *)
  Definition rp_ok (p : rprover Sym St) : Prop := forall k r, In (k, r) (rp_rules p) -> rrule_ok (rp_next p) k r.
  Definition rp_trusted (p : rprover Sym St) : bool := forallb trusted_rule (map snd (rp_rules p)).

  Lemma kset_new {A} k (a : A) d : kget M k d = None -> kset M k a d = d ++ [(k, a)].
  Proof.
    induction d as [|[k' b] d IH]; simpl; auto. destruct (key_eqb M k k'); [discriminate|]. intros H. now rewrite IH.
  Qed.

  Lemma lap_r_trusted mc mr p t q loop p' res : log_and_apply_r M mc mr p t q loop = Some (p', res) ->
    rp_trusted p' = true -> rp_trusted p = true.
  Proof.
    unfold log_and_apply_r, rp_trusted. set (k := strip_config z_is1 q t).
    destruct (kget M k (rp_rules p)) as [r|] eqn:Ek.
    - intros E. repeat match type of E with (match ?x with _ => _ end) = _ => destruct x; try discriminate end;
      apply some_inj in E; injection E as <- _; auto.
    - intros E. repeat match type of E with (match ?x with _ => _ end) = _ => destruct x; try discriminate end;
      apply some_inj in E; injection E as <- _; cbn [rp_rules add_rule_r]; auto.
      rewrite kset_new by exact Ek. rewrite map_app, forallb_app, andb_true_iff. tauto.
  Qed.

  Lemma lap_r_ok mc mr p t q loop c p' res : rp_ok p -> wf t -> Rp (den t q) c ->
    log_and_apply_r M mc mr p t q loop = Some (p', res) -> rp_trusted p' = true ->
    rp_ok p' /\ result_ok T M Rp t q c res.
  Proof.
    intros Hp W R. unfold log_and_apply_r. set (k := strip_config z_is1 q t).
    assert (Hm : forall n, (rp_next p <= n)%nat -> forall k r, In (k, r) (rp_rules p) -> rrule_ok n k r).
    { intros n Hn k' r' Hr. eapply rrule_ok_mono; [exact Hn|]. now apply Hp. }
    destruct (kget M k (rp_rules p)) as [r|] eqn:Ek.
    - apply (kget_in Gd T M Rp halted MS) in Ek. pose proof (Hp _ _ Ek) as Hr.
      destruct (apply_rule_z mr (rp_next p) (rr_rule r) t) as [[n o]|] eqn:Ea; [|discriminate].
      destruct (apply_rule_z_ok _ _ _ _ _ _ _ _ _ Hr W eq_refl R Ea) as [Hn Ho].
      destruct o as [[x large]|]; intros E _; apply some_inj in E; injection E as <- <-; (split; [exact (Hm n Hn)|]); [exact Ho|exact I].
    - destruct (log_config _ loop) as [prove pc'] eqn:El. destruct prove.
      + destruct (log_config_delta _ _ _ El) as (l & El' & Hd). rewrite El'. cbn [rp_rules rp_next rp_past].
        destruct (prove_rule_v M mr (rp_rules p) (rp_next p) t q (loop - l)) as [[n o]|] eqn:Ep; [|discriminate].
        destruct (prove_v_ok _ _ _ _ _ _ _ _ _ W R Hd Hp Ep) as [Hn Ho].
        destruct o as [r|]; [|intros E _; apply some_inj in E; injection E as <- <-; split; [exact (Hm n Hn)|exact I]].
        destruct (apply_rule_z mr n (rr_rule r) t) as [[n2 o2]|] eqn:Ea; [|discriminate].
        intros E Tr. apply some_inj in E. injection E as <- <-.
        unfold rp_trusted in Tr. cbn [rp_rules add_rule_r] in Tr. rewrite kset_new, map_app, forallb_app in Tr by exact Ek.
        apply andb_true_iff in Tr. destruct Tr as [_ Tr]. simpl in Tr. rewrite andb_true_r in Tr.
        specialize (Ho Tr). destruct (apply_rule_z_ok _ _ _ _ _ _ _ _ _ Ho W eq_refl R Ea) as [Hn2 Ho2].
        split; [|destruct o2 as [[x y]|]; [exact Ho2|exact I]].
        intros k' r' Hr'. cbn [rp_rules add_rule_r rp_next] in *. rewrite kset_new in Hr' by exact Ek.
        apply in_app_iff in Hr'. destruct Hr' as [Hr'|[Hr'|[]]]; [apply Hm; [lia|exact Hr']|].
        injection Hr' as <- <-. eapply rrule_ok_mono; [exact Hn2|exact Ho].
      + destruct (Nat.ltb _ _); intros E _; apply some_inj in E; injection E as <- <-; (split; [exact Hp|exact I]).
  Qed.

  (** the same prover, made total; it agrees as long as all the rules are trusted *)
  Definition lap_total (mc mr : nat) (p : rprover Sym St) (t : ctape Z Sym) (q : St) (loop : nat)
    : option (rprover Sym St * prover_result Z Sym) :=
    match log_and_apply_r M mc mr p t q loop with
    | Some (p', res) => if rp_trusted p' then Some (p', res) else Some (p, PNothing)
    | None => Some (p, PNothing)
    end.
  Lemma lap_total_ok mc mr : prover_ok T M Rp (lap_total mc mr) rp_ok.
  Proof.
    intros p t q loop c Hp W R. unfold lap_total.
    destruct (log_and_apply_r M mc mr p t q loop) as [[p' res]|] eqn:E; [|do 2 eexists; split; [reflexivity|split; [exact Hp|exact I]]].
    destruct (rp_trusted p') eqn:Et; [|do 2 eexists; split; [reflexivity|split; [exact Hp|exact I]]].
    do 2 eexists. split; [reflexivity|]. eapply lap_r_ok; eauto.
  Qed.
End RecRun.

(** ** two provers that agree as long as [Q] holds *)
Section Same.
  Context {Sym St P : Type}.
  Variables (M : machine Sym St) (lap1 lap2 : P -> ctape Z Sym -> St -> nat -> option (P * prover_result Z Sym))
            (Q : P -> Prop).
  Hypothesis H12 : forall p t q l p' r, lap1 p t q l = Some (p', r) -> Q p' -> Q p /\ lap2 p t q l = Some (p', r).

  Lemma same_step ps ps' : sim_step zops M lap1 ps = Some ps' -> Q (fst ps') ->
    Q (fst ps) /\ sim_step zops M lap2 ps = Some ps'.
  Proof.
    destruct ps as [p s]. unfold sim_step. destruct (negb (cond_eqb (s_op s) RUNNING)); [intros [= <-]; auto|].
    destruct (lap1 p _ _ _) as [[p1 r]|] eqn:E; [|discriminate].
    assert (G : Q p1 -> Q p /\ lap2 p (s_tape (loop_inc s)) (s_state (loop_inc s)) (s_loops (loop_inc s) - 1) = Some (p1, r)).
    { intros HQ. eapply H12; eauto. }
    destruct r as [|t n seen|rs].
    - destruct (sim_move zops M (loop_inc s)) as [s'|] eqn:Em; [|discriminate]. intros [= <-] HQ.
      destruct (G HQ) as [G1 ->]. auto.
    - intros [= <-] HQ. destruct (G HQ) as [G1 ->]. auto.
    - intros [= <-] HQ. destruct (G HQ) as [G1 ->]. auto.
  Qed.
  Lemma same_iter n : forall ps ps', sim_iter zops M lap1 n ps = Some ps' -> Q (fst ps') ->
    Q (fst ps) /\ sim_iter zops M lap2 n ps = Some ps'.
  Proof.
    induction n as [|n IH]; cbn [sim_iter]; intros ps ps' E HQ; [injection E as <-; auto|].
    destruct (sim_step zops M lap1 ps) as [p1|] eqn:Es; [|discriminate].
    destruct (IH _ _ E HQ) as [Q1 E1]. destruct (same_step _ _ Es Q1) as [Q0 ->]. auto.
  Qed.
  Lemma same_loop cutoff f : forall ps ps', loop_seek_loop zops M lap1 f cutoff ps = Some ps' -> Q (fst ps') ->
    Q (fst ps) /\ loop_seek_loop zops M lap2 f cutoff ps = Some ps'.
  Proof.
    induction f as [|f IH]; cbn [loop_seek_loop]; intros ps ps' E HQ;
      (destruct (_ && _); [|injection E as <-; auto]); [discriminate|].
    destruct (sim_step zops M lap1 ps) as [p1|] eqn:Es; [|discriminate].
    destruct (IH _ _ E HQ) as [Q1 E1]. destruct (same_step _ _ Es Q1) as [Q0 ->]. auto.
  Qed.
  Lemma same_seek cutoff f : forall ps ps', seek_loop M lap1 f cutoff ps = Some ps' -> Q (fst ps') ->
    Q (fst ps) /\ seek_loop M lap2 f cutoff ps = Some ps'.
  Proof.
    induction f as [|f IH]; cbn [seek_loop]; intros ps ps' E HQ;
      (destruct (_ && _); [|injection E as <-; auto]); [discriminate|].
    destruct (sim_step zops M lap1 ps) as [p1|] eqn:Es; [|discriminate].
    destruct (IH _ _ E HQ) as [Q1 E1]. destruct (same_step _ _ Es Q1) as [Q0 ->]. auto.
  Qed.
  Lemma same_drive d ps ps' : drive M lap1 d ps = Some ps' -> Q (fst ps') -> drive M lap2 d ps = Some ps'.
  Proof.
    destruct d; simpl; intros E HQ.
    - eapply same_iter; eauto.
    - eapply same_loop; eauto.
    - eapply same_seek; eauto.
  Qed.
End Same.

Lemma run_any_rec Gd T {Sym St} (M : machine Sym St) mc mr next d p s : sound_machine Gd T Sym St M ->
  drive M (log_and_apply_r M mc mr) d (rprover_init next, sim_init zops M) = Some (p, s) ->
  rp_trusted p = true -> report_ok Gd T (report_of M s).
Proof.
  intros (Rp & halted & MS & SW & PU) E Tr.
  assert (P0 : rp_ok T M Rp (rprover_init next)) by (intros k r []).
  assert (E2 : drive M (lap_total M mc mr) d (rprover_init next, sim_init zops M) = Some (p, s)).
  { apply (same_drive M (log_and_apply_r M mc mr) (lap_total M mc mr) (fun p => rp_trusted p = true)); [|exact E|exact Tr].
    intros p0 t q l p' r E1 Ht. split; [eapply lap_r_trusted; eauto|]. unfold lap_total. now rewrite E1, Ht. }
  destruct (drive_ok Gd T M Rp halted MS SW _ _ (lap_total_ok Gd T M Rp halted MS SW PU mc mr) d
              (rprover_init next) (sim_init zops M) P0
              (sim_init_ok Gd T M Rp halted MS)) as (p' & s' & E3 & _ & H).
  rewrite E2 in E3. injection E3 as <- <-. eapply sim_report_ok; eauto.
Qed.

Lemma run_recursive_ok n m tab g mc mr next d r rules (Gd : Prop) : wf_ttable n m tab -> valid_setting g = true ->
  run_recursive tab g mc mr next d = Some (r, rules) -> forallb trusted_rule rules = true ->
  (Gd -> repeat_trusted n m g) -> report_ok False (table_of tab) r /\ (Gd -> report_ok True (table_of tab) r).
Proof.
  intros W V E Tr Hg. split; [|intros G].
  - assert (H : forall r rules, run_recursive tab g mc mr next d = Some (r, rules) -> forallb trusted_rule rules = true ->
      report_ok False (table_of tab) r); [|eapply H; eauto].
    unfold run_recursive.
    apply (with_machine_prop tab g _ _ (fun o => forall r rules, o = Some (r, rules) -> forallb trusted_rule rules = true ->
      report_ok False (table_of tab) r) (setting_exact n m tab g W V)).
    intros Sym St M H r0 rules0.
    destruct (drive M _ d _) as [[p s]|] eqn:Ed; [|discriminate]. intros E0 T0. apply some_inj in E0.
    injection E0 as <- <-. eapply run_any_rec; eauto.
  - assert (H : forall r rules, run_recursive tab g mc mr next d = Some (r, rules) -> forallb trusted_rule rules = true ->
      report_ok True (table_of tab) r); [|eapply H; eauto].
    unfold run_recursive.
    apply (with_machine_prop tab g _ _ (fun o => forall r rules, o = Some (r, rules) -> forallb trusted_rule rules = true ->
      report_ok True (table_of tab) r) (setting_trusted n m tab g W V (Hg G))).
    intros Sym St M H r0 rules0.
    destruct (drive M _ d _) as [[p s]|] eqn:Ed; [|discriminate]. intros E0 T0. apply some_inj in E0.
    injection E0 as <- <-. eapply run_any_rec; eauto.
Qed.
