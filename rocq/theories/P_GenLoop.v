(** * The generalised run of [prove_rule] *)
Require Import ZArith List Lia Bool Arith QArith Qround Permutation.
From Verif Require Import Spec_TM M_Turing_Machine P_Stream P_SimLimited P_Macro P_Pump
     M_Expr P_Expr M_Tape M_Simulator P_Tape P_Simulator M_Prover P_Lin P_GenSim P_Form.
Import ListNotations.
Open Scope Z_scope.

Lemma some_inj {A} (a b : A) : Some a = Some b -> a = b.
Proof. congruence. Qed.

Definition av (m : ndict Q) (v : val) : Prop := above m (Some v).
Lemma av_nform m v : av m v -> nform v.
Proof.
  destruct v as [q|e]; simpl.
  - intros (z & -> & Hz). left. eauto.
  - intros (x & d & a & -> & _). right. eauto.
Qed.
Lemma av_pos m sg v : av m v -> valid sg m -> 0 < zev sg v.
Proof.
  destruct v as [q|e]; simpl.
  - intros (z & -> & Hz) _. rewrite zev_VS. lia.
  - intros (x & d & a & -> & E & Hl) V. rewrite zev_var_plus. specialize (V _ _ E). lia.
Qed.
Lemma form_wf {Sym} (i0 : Sym) m sg t : tform i0 (av m) t -> valid sg m -> twf i0 (et sg t).
Proof.
  intros [A B] V.
  assert (G : forall h, hform i0 (av m) h -> hwf i0 (map (eb sg) h)).
  { induction 1; simpl; constructor; auto. simpl. pose proof (av_pos m sg v H V). lia. }
  split; simpl; auto.
Qed.
Lemma hform_above {Sym} (i0 : Sym) m h : hform i0 pform h -> Forall (above m) (map k_num h) -> hform i0 (av m) h.
Proof.
  induction 1; simpl; intros H1; [constructor|]. inversion H1; subst. constructor; auto.
Qed.
Lemma nums_forall {Sym} (P : option val -> Prop) (t : ctape val Sym) :
  Forall P (nums t) <-> Forall P (map k_num (ct_l t)) /\ Forall P (map k_num (ct_r t)).
Proof.
  unfold nums. rewrite !Forall_forall. setoid_rewrite in_app_iff. setoid_rewrite <- in_rev.
  split; [intros H; split; intros; apply H; auto|intros [H1 H2] x [?|?]; auto].
Qed.
Lemma tform_above {Sym} (i0 : Sym) m t : tform i0 pform t -> Forall (above m) (nums t) -> tform i0 (av m) t.
Proof. intros [A B] H. apply nums_forall in H. destruct H. split; eauto using hform_above. Qed.
Lemma pform_nums {Sym} (i0 : Sym) V (t : ctape val Sym) : tform i0 pform t -> incl (tvars t) V ->
  Forall (fun o => match o with Some v => pform v /\ incl (v_variables v) V | None => True end) (nums t).
Proof.
  intros [A B] H. apply nums_forall.
  assert (G : forall h, hform i0 pform h -> incl (hvars h) V ->
    Forall (fun o => match o with Some v => pform v /\ incl (v_variables v) V | None => True end) (map k_num h)).
  { induction 1; intros Hi; simpl; constructor; auto.
    - split; auto. intros x Hx. apply Hi. unfold hvars. simpl. apply in_or_app. auto.
    - apply IHhform. intros x Hx. apply Hi. unfold hvars. simpl. apply in_or_app. auto. }
  unfold tvars in H. apply incl_app_inv in H. destruct H. split; auto.
Qed.

Lemma valid_ex m : exists sg, valid sg m.
Proof.
  exists (fun x => match nd_get x m with Some q => 1 - Qnum q | None => 0 end).
  intros x a E. rewrite E. cbn [Qnum inject_Z]. lia.
Qed.

Section GenLoop.
  Context {Sym St : Type}.
  Variables (Gd : Prop) (T : table) (M : machine Sym St) (Rp : dcfg Sym St -> config -> Prop)
            (halted : St -> Prop).
  Hypothesis MS : msound Gd T M Rp halted.
  Hypothesis SW : seen_wf M Rp.
  Notation i0 := (m_init_sym M).
  Notation wf := (twf i0).
  Notation den := (tden i0).

  Definition dvars (d : ndict val) (V : list nat) : Prop :=
    Forall (fun kv => incl (v_variables (snd kv)) V) d.

  Record ginv (V : list nat) (m : ndict Q) (s : sim val Sym St) : Prop := {
    gi_form : tform i0 (av m) (s_tape s);
    gi_nodup : NoDup (tvars (s_tape s));
    gi_vars : incl (tvars (s_tape s)) V;
    gi_minv : minv V m;
    gi_dir : ct_dir (s_tape s) = s_dir s;
    gi_steps : lv (s_steps s);
    gi_svars : incl (v_variables (s_steps s)) V;
    gi_seen : exists d, s_seen s = Some d /\ dlin d /\ NoDup (map fst d) /\ dvars d V }.

  Lemma ginv_lin V m s : ginv V m s -> glin s.
  Proof.
    intros [A B C D E F X (d & H1 & H2 & H3 & _)]. split.
    { destruct A. split; apply (hform_lin i0), (hform_mono i0 (av m)); auto; apply av_nform. }
    split; [exact E|]. split; [exact F|]. eauto.
  Qed.

  Lemma seen_update_form V d base (new : dict) : lv base -> incl (v_variables base) V ->
    dlin d -> NoDup (map fst d) -> dvars d V ->
    let d' := fold_left (fun d kv => nd_set (fst kv) (v_add base (VS (inject_Z (Z.of_nat (snd kv))))) d) new d in
    dlin d' /\ NoDup (map fst d') /\ dvars d' V.
  Proof.
    intros Hb Hv. simpl. revert d. induction new as [|[k j] new IH]; simpl; intros d H1 H2 H3; auto.
    apply IH.
    - apply nd_set_forall; simpl; auto using v_add_lin, VS_lin.
    - now apply nd_set_nodup.
    - assert (incl (v_variables (v_add base (VS (inject_Z (Z.of_nat j))))) V).
      { intros x Hx. apply v_add_vars in Hx. destruct Hx as [Hx|[]]; auto. }
      apply nd_set_forall; simpl; auto.
  Qed.

  Lemma gmove_form V m s s' : ginv V m s -> sim_move vops M s = Some s' -> s_op s' = RUNNING ->
    tform i0 pform (s_tape s') /\ NoDup (tvars (s_tape s')) /\ incl (tvars (s_tape s')) V /\
    ct_dir (s_tape s') = s_dir s' /\ lv (s_steps s') /\ incl (v_variables (s_steps s')) V /\
    exists d, s_seen s' = Some d /\ dlin d /\ NoDup (map fst d) /\ dvars d V.
  Proof.
    intros [A B C D E F X (d & H1 & H2 & H3 & H4)]. unfold sim_move.
    assert (A' : tform i0 nform (s_tape s)).
    { destruct A. split; apply (hform_mono i0 (av m)); auto; apply av_nform. }
    destruct (ct_top (s_tape s)) as [top|]; [|discriminate].
    destruct (m_trans M (k_sym top) (s_state s) (s_dir s)) as [t|]; [|discriminate].
    destruct (cond_eqb (t_cond t) INF_REPEAT).
    { intros E1. injection E1 as <-. simpl. discriminate. }
    destruct (m_st_eqb M (t_state t) (s_state s) && dir_eqb (t_dir t) (s_dir s)
              && cond_eqb (t_cond t) RUNNING).
    - destruct (apply_chain_move vops (m_sym_eqb M) (s_tape s) (t_sym t)) as [[t' n]|] eqn:Ec; [|discriminate].
      destruct (chain_form (m_sym_eqb M) i0 _ _ _ _ A' B Ec) as (F1 & F2 & F3 & F4).
      destruct n as [v|].
      + intros E1. apply some_inj in E1. subst s'. intros _. cbn [s_tape s_dir s_steps s_seen].
        destruct (F4 v eq_refl) as [F5 F6]. apply nform_lin in F5.
        assert (F7 : incl (v_variables v) V) by (eapply incl_tran; eauto).
        cbn [n_add n_mul n_of vops].
        split; [exact F1|]. split; [eapply pvars_nodup; eauto|].
        split; [eapply incl_tran; [apply pvars_incl; exact F2|exact C]|].
        split; [congruence|]. split; [auto using v_add_lin, v_mul_lin|].
        split. { intros x Hx. apply v_add_vars in Hx. destruct Hx as [Hx|Hx]; auto.
                 apply v_mul_vars in Hx. auto. }
        unfold seen_update. rewrite H1. eexists. split; [reflexivity|].
        apply seen_update_form; auto.
        * apply v_add_lin; auto. apply v_mul_lin, v_add_lin; auto. apply VS_lin.
        * intros x Hx. apply v_add_vars in Hx. destruct Hx as [Hx|Hx]; auto.
          apply v_mul_vars in Hx. apply v_add_vars in Hx. destruct Hx as [Hx|[]]; auto.
      + intros E1. injection E1 as <-. simpl. discriminate.
    - destruct (negb (cond_eqb (t_cond t) GAVE_UP)) eqn:Eg.
      + destruct (apply_single_move vops (m_sym_eqb M) (s_tape s) (t_sym t) (t_dir t)) as [t'|] eqn:Ec; [|discriminate].
        destruct (single_form (m_sym_eqb M) i0 _ _ _ _ A' B Ec) as (F1 & F2 & F3).
        intros E1. apply some_inj in E1. subst s'. intros _. cbn [s_tape s_dir s_steps s_seen].
        cbn [n_add n_mul n_of vops].
        split; [exact F1|]. split; [eapply pvars_nodup; eauto|].
        split; [eapply incl_tran; [apply pvars_incl; exact F2|exact C]|].
        split; [congruence|]. split; [auto using v_add_lin, VS_lin|].
        split. { intros x Hx. apply v_add_vars in Hx. destruct Hx as [Hx|[]]; auto. }
        unfold seen_update. rewrite H1. eexists. split; [reflexivity|].
        apply seen_update_form; auto.
      + intros E1. injection E1 as <-. simpl. intros E2. rewrite E2 in Eg. discriminate.
  Qed.

  (** the invariant of the loop: [t0], [q0] is the generalised starting point *)
  Definition gj (V : list nat) (t0 : ctape val Sym) (q0 : St) (k : Z) (m : ndict Q)
             (s : sim val Sym St) : Prop :=
    ginv V m s /\
    forall sg c0, valid sg m -> Rp (den (et sg t0) q0) c0 ->
      gsnap T M Rp sg c0 s /\ k <= zev sg (s_steps s).

  Lemma gen_loop_ok V t0 q0 m0 :
    (forall sg, valid sg m0 -> exists c0, Rp (den (et sg t0) q0) c0) ->
    forall delta k m s, mle m m0 -> gj V t0 q0 k m s ->
      gen_loop M delta s m <> PExn /\
      forall s' m', gen_loop M delta s m = POk (s', m') ->
        mle m' m /\ gj V t0 q0 (k + Z.of_nat delta) m' s'.
  Proof.
    intros Start. induction delta as [|delta IH]; intros k m s Hm (GI & GS).
    - simpl. split; [discriminate|]. intros s' m' E. injection E as <- <-.
      split; [apply mle_refl|]. rewrite Z.add_0_r. split; auto.
    - simpl gen_loop.
      destruct (ct_top (s_tape s)) as [b|] eqn:Etop.
      2:{ exfalso. pose proof (gi_form _ _ _ GI) as [A B]. unfold ct_top, half in Etop.
          destruct (ct_dir (s_tape s)); [destruct A|destruct B]; discriminate. }
      destruct (num_le0 (k_num b)); [split; discriminate|].
      set (s1 := loop_inc s).
      assert (GI1 : ginv V m s1) by (destruct GI; constructor; auto).
      assert (GS1 : forall sg c0, valid sg m -> Rp (den (et sg t0) q0) c0 ->
                gsnap T M Rp sg c0 s1 /\ k <= zev sg (s_steps s1)) by exact GS.
      clearbody s1. clear s GI GS Etop.
      assert (Tot : exists s2, sim_move vops M s1 = Some s2).
      { destruct (valid_ex m) as [sg Hv].
        destruct (Start sg) as (c0 & R0). { eapply mle_valid; eauto. }
        destruct (GS1 sg c0 Hv R0) as [S1 _].
        destruct (gmove Gd T M Rp halted MS SW sg c0 s1 (ginv_lin _ _ _ GI1)) as (s2 & E & _); auto.
        { eapply form_wf; eauto using gi_form. }
        eauto. }
      destruct Tot as (s2 & E2). rewrite E2.
      destruct (negb (cond_eqb (s_op s2) RUNNING)) eqn:Er; [split; discriminate|].
      assert (Er' : s_op s2 = RUNNING) by (destruct (s_op s2); try discriminate; auto).
      destruct (gmove_form V m s1 s2 GI1 E2 Er') as (F1 & F2 & F3 & F4 & F5 & F6 & F7).
      destruct (update_min_ok V (nums (s_tape s2)) m (gi_minv _ _ _ GI1) (pform_nums _ _ _ F1 F3)) as [U1 U2].
      destruct (update_min (nums (s_tape s2)) m) as [| |m2] eqn:Eu; [congruence|split; discriminate|].
      destruct (U2 m2 eq_refl) as [L2 A2].
      assert (GJ2 : gj V t0 q0 (k + 1) m2 s2).
      { split.
        - constructor; auto.
          + now apply tform_above.
          + eapply mle_minv; [exact L2|]. apply (gi_minv _ _ _ GI1).
        - intros sg c0 Hv R0. assert (Hv1 : valid sg m) by (eapply mle_valid; eauto).
          destruct (GS1 sg c0 Hv1 R0) as [S1 K1].
          destruct (gmove Gd T M Rp halted MS SW sg c0 s1 (ginv_lin _ _ _ GI1)) as (s2' & E & G2); auto.
          { eapply form_wf; eauto using gi_form. }
          rewrite E2 in E. injection E as <-. destruct (G2 Er'). split; auto. lia. }
      destruct (IH (k + 1) m2 s2 (mle_trans _ _ _ L2 Hm) GJ2) as [I1 I2].
      split; auto. intros s' m' E. destruct (I2 s' m' E) as [J1 J2].
      split; [eapply mle_trans; eauto|].
      replace (k + Z.of_nat (S delta)) with (k + 1 + Z.of_nat delta) by lia. exact J2.
  Qed.
End GenLoop.
