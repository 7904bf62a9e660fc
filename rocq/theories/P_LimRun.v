(** * The simulator with the option [--limited-rules], in every macro setting *)
Require Import ZArith List Lia Bool Arith QArith Permutation.
From Verif Require Import Spec_TM M_Turing_Machine P_Stream P_SimLimited P_Macro P_Repeat P_Pump
     M_Expr M_Tape M_Simulator P_Tape P_Simulator M_Settings P_Settings M_Prover P_Nums P_Rule P_MakeRule P_Apply
     P_ProverRun M_ProverLim P_ProverLim P_LimApply P_LimRule.
Import ListNotations.
Open Scope Z_scope.

Section LimRun.
  Context {Sym St : Type}.
  Variables (Gd : Prop) (T : table) (M : machine Sym St) (Rp : dcfg Sym St -> config -> Prop)
            (halted : St -> Prop).
  Hypothesis MS : msound Gd T M Rp halted.
  Hypothesis SW : seen_wf M Rp.
  Hypothesis PU : pumpable Rp.
  Variable order : forall A, list A -> list A.
  Hypothesis Horder : forall A l, incl (order A l) l.
  Notation i0 := (m_init_sym M).
  Notation wf := (twf i0).
  Notation den := (tden i0).

  Lemma far_pos d (h : list (blk Z Sym)) : hwf i0 h -> hpos (far d h).
  Proof.
    intros H. apply hwf_pos in H. rewrite <- (near_far d h), map_app in H. apply Forall_app in H. apply H.
  Qed.

  Lemma apply_lim_ok next kl kr r t q c : lim_ok T M Rp (kl, kr, r) -> wf t ->
    lkey_of q (ct_dir t) (strip_half z_is1 (ct_l t)) (lr_left r) = kl ->
    lkey_of q (ct_dir t) (strip_half z_is1 (ct_r t)) (lr_right r) = kr ->
    Rp (den t q) c ->
    exists nx o, apply_lim next r t = Some (nx, o) /\ out_ok T M Rp t q c o.
  Proof.
    intros H W Kl Kr R. destruct (H t q W Kl Kr) as (D & Al & L1 & L2).
    destruct (apply_diff_ok T M Rp next (shape t) q _ _ _ _ t c D Al eq_refl R) as (nx & o & E & Ho).
    exists nx, o. split; [|exact Ho]. rewrite <- E. unfold padded. 
    pose proof (apply_pad next (lr_init r) (lr_diff r) (lr_steps r) (lr_seen r) (ct_dir t)
      (near (lr_left r) (ct_l t)) (near (lr_right r) (ct_r t)) (far (lr_left r) (ct_l t)) (far (lr_right r) (ct_r t)) L1 L2
      (far_pos _ _ (proj1 W)) (far_pos _ _ (proj2 W))) as P.
    rewrite !near_far in P. replace (CTape (ct_dir t) (ct_l t) (ct_r t)) with t in P by (destruct t; reflexivity).
    rewrite P. unfold apply_lim.
    destruct (apply_diff_rule next (lr_init r) (lr_diff r) (lr_steps r) (lr_seen r) _) as [[nx' [[]|]]|]; reflexivity.
  Qed.

  Lemma ohalf_eqb_eq a : forall b, ohalf_eqb M a b = true -> a = b.
  Proof.
    induction a as [|[[s x]|] a IH]; intros [|[[s' y]|] b]; simpl; try discriminate; auto.
    - rewrite !andb_true_iff. intros [[H1 H2] H3]. apply (ms_sym_eq _ _ _ _ _ MS) in H1. apply eqb_prop in H2.
      apply IH in H3. congruence.
    - intros H. apply IH in H. congruence.
  Qed.
  Lemma lkey_eqb_eq a b : lkey_eqb M a b = true -> a = b.
  Proof.
    destruct a as [[[q d] h] i], b as [[[q' d'] h'] i']. unfold lkey_eqb. rewrite !andb_true_iff.
    intros [[[H1 H2] H3] H4]. apply (ms_st_eq _ _ _ _ _ MS) in H1. apply ohalf_eqb_eq in H3. apply Nat.eqb_eq in H4.
    assert (d = d') by (destruct d, d'; simpl in H2; congruence). congruence.
  Qed.
  Lemma lkeys_in k q d h : existsb (lkey_eqb M k) (lkeys q d h) = true -> exists i, k = lkey_of q d h i.
  Proof.
    intros H. apply existsb_exists in H. destruct H as (k' & Hk & E). apply lkey_eqb_eq in E. subst k'.
    unfold lkeys in Hk. apply in_map_iff in Hk. destruct Hk as (i & <- & _). eauto.
  Qed.

  (** stored rules are true and their keys name the distances of the rule *)
  Definition lrules_ok (p : lprover (Sym := Sym) (St := St)) : Prop :=
    forall kl kr r, In (kl, kr, r) (lp_rules p) ->
      lim_ok T M Rp (kl, kr, r) /\ snd kl = lr_left r /\ snd kr = lr_right r.

  Lemma lim_found_ok p t q r : lrules_ok p -> In r (lim_found M p (strip_config z_is1 q t)) ->
    exists kl kr, lim_ok T M Rp (kl, kr, r) /\
      lkey_of q (ct_dir t) (strip_half z_is1 (ct_l t)) (lr_left r) = kl /\
      lkey_of q (ct_dir t) (strip_half z_is1 (ct_r t)) (lr_right r) = kr.
  Proof.
    intros Hp H. unfold lim_found, strip_config in H. apply in_map_iff in H. destruct H as ([[kl kr] r'] & <- & H).
    apply filter_In in H. destruct H as [H1 H2]. cbn [fst snd] in *. apply andb_true_iff in H2. destruct H2 as [H2 H3].
    apply lkeys_in in H2, H3. destruct H2 as [i ->]. destruct H3 as [j ->].
    destruct (Hp _ _ _ H1) as (O & Ei & Ej). unfold lkey_of in Ei, Ej. cbn [snd] in Ei, Ej. subst i j.
    do 2 eexists. split; [exact O|]. auto.
  Qed.

  Lemma try_lim_ok rs t q c : wf t -> Rp (den t q) c ->
    (forall r, In r rs -> exists kl kr, lim_ok T M Rp (kl, kr, r) /\
      lkey_of q (ct_dir t) (strip_half z_is1 (ct_l t)) (lr_left r) = kl /\
      lkey_of q (ct_dir t) (strip_half z_is1 (ct_r t)) (lr_right r) = kr) ->
    forall next, exists nx o, try_lim next rs t = Some (nx, o) /\ out_ok T M Rp t q c o.
  Proof.
    intros W R. induction rs as [|r rs IH]; intros H next; cbn [try_lim].
    - do 2 eexists. split; [reflexivity|exact I].
    - destruct (H r (or_introl eq_refl)) as (kl & kr & O & E1 & E2).
      destruct (apply_lim_ok next kl kr r t q c O W E1 E2 R) as (nx & o & -> & Ho).
      destruct o as [res|]; [eauto|]. apply IH. intros r' Hr. apply H. simpl. auto.
  Qed.

  Theorem lap_lim_ok mc mr : (0 < mr)%nat ->
    prover_ok T M Rp (log_and_apply_lim M mc mr order) lrules_ok.
  Proof.
    intros Hmax p tape q loops c Hp W R. unfold log_and_apply_lim.
    set (k := strip_config z_is1 q tape).
    destruct (try_lim_ok (order _ (lim_found M p k)) tape q c W R) with (next := lp_next p) as (nx & o & -> & Ho).
    { intros r Hr. eapply lim_found_ok; eauto. eapply Horder; eauto. }
    destruct o as [res|]; [do 2 eexists; split; [reflexivity|]; split; [exact Hp|exact Ho]|].
    destruct (log_config _ loops) as [prove pc'] eqn:El. destruct prove.
    - destruct (log_config_delta _ _ _ El) as (l & El' & Hd). rewrite El'. cbn [lp_next lp_rules lp_past].
      destruct (prove_lim_ok Gd T M Rp halted MS SW PU nx tape q c (loops - l) W R Hd) as (nx1 & o & -> & Hr).
      destruct o as [r|]; [|do 2 eexists; split; [reflexivity|]; split; [exact Hp|exact I]].
      assert (Ha : exists nx' o, apply_new mr nx1 r tape = Some (nx', o) /\ out_ok T M Rp tape q c o).
      { destruct r as [r|r]; cbn [apply_new].
        - eapply apply_lim_ok; eauto.
        - eapply apply_rule_ok; eauto. }
      destruct Ha as (nx' & o & -> & Hres).
      do 2 eexists. split; [reflexivity|]. split; [|destruct o; [exact Hres|exact I]].
      intros kl kr r' Hin. unfold add_lim, k, strip_config in Hin. cbn [lp_rules] in Hin.
      destruct r as [r|r]; [|now apply Hp]. apply in_app_iff in Hin. destruct Hin as [Hin|[[= <- <- <-]|[]]]; [now apply Hp|].
      split; [exact Hr|]. split; reflexivity.
    - destruct (Nat.ltb _ _); do 2 eexists; (split; [reflexivity|]); split; try exact Hp; exact I.
  Qed.
End LimRun.

Lemma run_any_lim Gd T {Sym St} (M : machine Sym St) (order : forall A, list A -> list A) mc mr next d :
  (forall A l, incl (order A l) l) -> (0 < mr)%nat -> sound_machine Gd T Sym St M ->
  exists r, match drive M (log_and_apply_lim M mc mr order) d (lprover_init next, sim_init zops M) with
            | Some (_, s) => Some (report_of M s)
            | None => None
            end = Some r /\ report_ok Gd T r.
Proof.
  intros Ho Hmr (Rp & halted & MS & SW & PU).
  assert (P0 : lrules_ok T M Rp (lprover_init next)) by (intros kl kr r []).
  destruct (drive_ok Gd T M Rp halted MS SW _ _ (lap_lim_ok Gd T M Rp halted MS SW PU order Ho mc mr Hmr) d
              (lprover_init next) (sim_init zops M) P0
              (sim_init_ok Gd T M Rp halted MS)) as (p' & s' & -> & _ & H).
  eexists. split; [reflexivity|]. eapply sim_report_ok; eauto.
Qed.

Lemma run_limited_ok n m order tab g mc mr next d (Gd : Prop) : (forall A l, incl (order A l) l) ->
  wf_ttable n m tab -> valid_setting g = true ->
  (0 < mr)%nat -> (Gd -> repeat_trusted n m g) ->
  exists r, run_limited order tab g mc mr next d = Some r /\
    (report_ok False (table_of tab) r) /\ (Gd -> report_ok True (table_of tab) r).
Proof.
  intros Ho W V Hmr Tr.
  assert (H1 : exists r, run_limited order tab g mc mr next d = Some r /\ report_ok False (table_of tab) r).
  { unfold run_limited.
    apply (with_machine_prop tab g _ _ (fun o => exists r, o = Some r /\ report_ok False (table_of tab) r)
             (setting_exact n m tab g W V)).
    intros Sym St M H. now apply run_any_lim. }
  destruct H1 as (r & E & H1). exists r. split; [exact E|]. split; [exact H1|].
  intros G.
  assert (H2 : exists r, run_limited order tab g mc mr next d = Some r /\ report_ok True (table_of tab) r).
  { unfold run_limited.
    apply (with_machine_prop tab g _ _ (fun o => exists r, o = Some r /\ report_ok True (table_of tab) r)
             (setting_trusted n m tab g W V (Tr G))).
    intros Sym St M H. now apply run_any_lim. }
  destruct H2 as (r' & E' & H2). congruence.
Qed.

Lemma run_limited_seek n m order tab g mc mr next z r : (forall A l, incl (order A l) l) ->
  wf_ttable n m tab -> valid_setting g = true ->
  (0 < mr)%nat -> run_limited order tab g mc mr next (Seek z) = Some r -> r_op r = RUNNING -> z <= r_steps r.
Proof.
  intros Ho W V Hmr E Er.
  assert (G : exists r, run_limited order tab g mc mr next (Seek z) = Some r /\ (r_op r = RUNNING -> z <= r_steps r)).
  { unfold run_limited.
    apply (with_machine_prop tab g _ _ (fun o => exists r, o = Some r /\ (r_op r = RUNNING -> z <= r_steps r))
             (setting_exact n m tab g W V)).
    intros Sym St M (Rp & halted & MS & SW & PU).
    assert (P0 : lrules_ok (table_of tab) M Rp (lprover_init next)) by (intros kl kr r0 []).
    destruct (drive_steps False (table_of tab) M Rp halted MS SW _ _
                (lap_lim_ok False (table_of tab) M Rp halted MS SW PU order Ho mc mr Hmr) (Seek z) (lprover_init next) (sim_init zops M) P0
                (sim_init_ok False _ M Rp halted MS)) as (k & [p s] & E1 & _ & E3).
    rewrite E1. eexists. split; [reflexivity|]. exact E3. }
  destruct G as (r' & E' & G). assert (r' = r) by congruence. subst. auto.
Qed.
