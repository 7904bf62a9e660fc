(** * The simulator inside the proofs of the recursive prover *)
Require Import ZArith List Lia Bool Arith QArith Qround.
From Verif Require Import Spec_TM M_Turing_Machine P_Stream P_SimLimited P_Macro P_Pump
     M_Expr P_Expr M_Tape M_Simulator P_Tape P_Simulator M_Prover M_ProverRec P_Lin P_GenSim P_Form P_GenLoop P_Nums P_Rule
     P_MakeRule P_Series P_RecVal.
Import ListNotations.
Open Scope Z_scope.

Section Form.
  Context {Sym : Type} (eqb : Sym -> Sym -> bool) (i0 : Sym) (W : list nat).

  Lemma cv_pop h h' : hform i0 (cv W) h -> pop_one vops h = Some h' -> hform i0 (cv W) h'.
  Proof.
    destruct 1 as [|s v h Hv Hh]; unfold pop_one; cbn [k_num k_sym]; intros E; apply some_inj in E; subst h'.
    - constructor.
    - cbv zeta. destruct (n_eq0 vops _); auto. constructor; auto. cbn [n_add n_of vops]. apply cv_add; auto. apply cv_VS.
  Qed.
  Lemma cv_push h a n h' : hform i0 (cv W) h -> cv W n -> push_num vops eqb h a n = Some h' -> hform i0 (cv W) h'.
  Proof.
    destruct 1 as [|s v h Hv Hh]; unfold push_num; cbn [k_num k_sym]; intros Hn E; apply some_inj in E; subst h'.
    - destruct (eqb i0 a); [apply hform_end|]. apply hform_blk; auto. apply hform_end.
    - destruct (eqb s a).
      + apply hform_blk; auto. cbn [n_add vops]. now apply cv_add.
      + apply hform_blk; auto. now apply hform_blk.
  Qed.
  Lemma tform_half t d P : tform i0 P t -> hform i0 P (half d t).
  Proof. intros [A B]. destruct d; auto. Qed.
  Lemma tform_set t d h P : tform i0 P t -> hform i0 P h -> tform i0 P (set_half d h t).
  Proof. intros [A B] H. destruct t as [d0 l r], d; split; auto. Qed.

  Lemma cv_single t a d t' : tform i0 (cv W) t -> apply_single_move vops eqb t a d = Some t' ->
    tform i0 (cv W) t' /\ ct_dir t' = d.
  Proof.
    intros F. unfold apply_single_move. destruct (pop_one vops (half (ct_dir t) t)) as [h|] eqn:Ep; [|discriminate].
    pose proof (cv_pop _ _ (tform_half _ _ _ F) Ep) as Fh. cbv zeta.
    destruct (push_num vops eqb _ a (n_of vops 1)) as [h2|] eqn:Eq; [|discriminate].
    apply cv_push in Eq; [|apply tform_half, tform_set; auto|apply cv_VS].
    intros E. apply some_inj in E. subst t'. split; [|reflexivity].
    exact (tform_set _ (opp d) h2 _ (tform_set _ (ct_dir t) h _ F Fh) Eq).
  Qed.
  Lemma cv_chain t a t' n : tform i0 (cv W) t -> apply_chain_move vops eqb t a = Some (t', n) ->
    tform i0 (cv W) t' /\ ct_dir t' = ct_dir t /\ forall v, n = Some v -> cv W v.
  Proof.
    intros F. unfold apply_chain_move. pose proof (tform_half t (ct_dir t) _ F) as Fh.
    destruct (half (ct_dir t) t) as [|[s m] rest] eqn:Eh; [discriminate|]. cbn [k_num].
    destruct m as [v|].
    2:{ intros E. apply some_inj in E. injection E as <- <-. split; [exact F|]. split; [reflexivity|discriminate]. }
    inversion Fh as [|? ? ? Fv Fr]; subst. cbv zeta.
    destruct (push_num vops eqb _ a v) as [h2|] eqn:Eq; [|discriminate].
    apply cv_push in Eq; [|apply tform_half, tform_set; auto|exact Fv].
    intros E. apply some_inj in E. injection E as <- <-. split; [|split].
    - apply tform_set; auto. now apply tform_set.
    - destruct t as [[] l r]; reflexivity.
    - intros v' E. apply some_inj in E. now subst.
  Qed.
End Form.

Section RecSim.
  Context {Sym St : Type}.
  Variables (Gd : Prop) (T : table) (M : machine Sym St) (Rp : dcfg Sym St -> config -> Prop)
            (halted : St -> Prop).
  Hypothesis MS : msound Gd T M Rp halted.
  Hypothesis SW : seen_wf M Rp.
  Notation i0 := (m_init_sym M).
  Notation wf := (twf i0).
  Notation den := (tden i0).

  Definition dgv (W : list nat) (d : ndict val) : Prop := Forall (fun kv => gv W (snd kv)) d.
  Definition rform (W : list nat) (s : sim val Sym St) : Prop :=
    tform i0 (cv W) (s_tape s) /\ ct_dir (s_tape s) = s_dir s /\ gv W (s_steps s) /\
    exists d, s_seen s = Some d /\ dgv W d /\ NoDup (map fst d).

  Lemma seen_update_gv W d base (new : dict) : gv W base -> dgv W d -> NoDup (map fst d) ->
    let d' := fold_left (fun d kv => nd_set (fst kv) (v_add base (VS (inject_Z (Z.of_nat (snd kv))))) d) new d in
    dgv W d' /\ NoDup (map fst d').
  Proof.
    intros Hb. simpl. revert d. induction new as [|[k j] new IH]; simpl; intros d H1 H2; auto.
    apply IH; [|now apply nd_set_nodup]. apply (nd_set_forall (fun kv => gv W (snd kv))); [| |exact H1]; simpl; intros; apply gv_add; auto using gv_VS.
  Qed.
  Lemma seen_merge_gv W base (new : ndict val) : gv W base -> dgv W new -> forall d, dgv W d -> NoDup (map fst d) ->
    let d' := fold_left (fun d kv => nd_set (fst kv) (v_add base (snd kv)) d) new d in
    dgv W d' /\ NoDup (map fst d').
  Proof.
    intros Hb Hn. simpl. induction Hn as [|[k j] new Hj _ IH]; simpl; intros d H1 H2; auto.
    apply IH; [|now apply nd_set_nodup]. apply (nd_set_forall (fun kv => gv W (snd kv))); [| |exact H1]; simpl; intros; now apply gv_add.
  Qed.

  Lemma rmove_form W s s' : rform W s -> sim_move vops M s = Some s' -> s_op s' = RUNNING ->
    rform W s' /\ s_rules s' = s_rules s.
  Proof.
    intros (A & D & E & d & H1 & H2 & H3). unfold sim_move.
    destruct (ct_top (s_tape s)) as [top|]; [|discriminate].
    destruct (m_trans M (k_sym top) (s_state s) (s_dir s)) as [t|]; [|discriminate].
    destruct (cond_eqb (t_cond t) INF_REPEAT).
    { intros E1. apply some_inj in E1. subst s'. simpl. discriminate. }
    destruct (m_st_eqb M (t_state t) (s_state s) && dir_eqb (t_dir t) (s_dir s)
              && cond_eqb (t_cond t) RUNNING).
    - destruct (apply_chain_move vops (m_sym_eqb M) (s_tape s) (t_sym t)) as [[t' n]|] eqn:Ec; [|discriminate].
      destruct (cv_chain (m_sym_eqb M) i0 W _ _ _ _ A Ec) as (F1 & F2 & F3).
      destruct n as [v|].
      + intros E1. apply some_inj in E1. subst s'. intros _. split; [|reflexivity]. unfold rform. cbn [s_tape s_dir s_steps s_seen].
        specialize (F3 v eq_refl). cbn [n_add n_mul n_of vops].
        split; [exact F1|]. split; [congruence|]. split; [apply gv_add; auto; apply cv_gv; now apply cv_mul|].
        unfold seen_update. rewrite H1. eexists. split; [reflexivity|].
        apply seen_update_gv; auto. apply gv_add; auto. apply cv_gv, cv_mul, cv_add; auto. apply cv_VS.
      + intros E1. apply some_inj in E1. subst s'. simpl. discriminate.
    - destruct (negb (cond_eqb (t_cond t) GAVE_UP)) eqn:Eg.
      + destruct (apply_single_move vops (m_sym_eqb M) (s_tape s) (t_sym t) (t_dir t)) as [t'|] eqn:Ec; [|discriminate].
        destruct (cv_single (m_sym_eqb M) i0 W _ _ _ _ A Ec) as (F1 & F2).
        intros E1. apply some_inj in E1. subst s'. intros _. split; [|reflexivity]. unfold rform. cbn [s_tape s_dir s_steps s_seen].
        cbn [n_add n_mul n_of vops].
        split; [exact F1|]. split; [congruence|]. split; [apply gv_add; auto; apply gv_VS|].
        unfold seen_update. rewrite H1. eexists. split; [reflexivity|]. apply seen_update_gv; auto.
      + intros E1. apply some_inj in E1. subst s'. simpl. intros E2. rewrite E2 in Eg. discriminate.
  Qed.

  Lemma rform_lin W s : rform W s -> tlin (s_tape s).
  Proof.
    intros [[A B] _]. assert (G : forall h, hform i0 (cv W) h -> hlin h).
    { induction 1; constructor; simpl; auto. apply H. }
    split; auto.
  Qed.

  (** the check of line 778 *)
  Lemma num_le0_pos W s b sg : rform W s -> NN sg -> ct_top (s_tape s) = Some b -> num_le0 (k_num b) = false ->
    head_pos (half (ct_dir (s_tape s)) (et sg (s_tape s))).
  Proof.
    intros R Hn Et E. pose proof (rform_lin W s R) as L. rewrite et_half. unfold ct_top in Et.
    pose proof (tlin_half (s_tape s) (ct_dir (s_tape s)) L) as Lh.
    destruct (half (ct_dir (s_tape s)) (s_tape s)) as [|b' h]; [discriminate|]. injection Et as ->.
    inversion Lh as [|? ? Lb _]; subst. cbn [map head_pos eb k_num]. destruct (k_num b) as [v|]; simpl in *; auto.
    destruct (v_min_val v) as [q|] eqn:Em; [|discriminate].
    pose proof (v_min_val_lower v q (rho sg) (NN_rho sg Hn) Em) as H. rewrite (zev_spec sg v Lb) in H.
    assert (Hq : (0 < q)%Q).
    { destruct (Qlt_le_dec 0 q) as [|Hle]; auto. apply Qle_bool_iff in Hle. congruence. }
    assert (Hz : (inject_Z 0 < inject_Z (zev sg v))%Q) by (eapply Qlt_le_trans; [exact Hq|exact H]).
    rewrite <- Zlt_Qlt in Hz. lia.
  Qed.
End RecSim.
