(** * The generalised run that records touched blocks *)
Require Import ZArith List Lia Bool Arith QArith Qround Permutation.
From Verif Require Import Spec_TM M_Turing_Machine P_Stream P_SimLimited P_Macro P_Pump
     M_Expr P_Expr M_Tape M_Simulator P_Tape P_Simulator M_Prover P_Lin P_GenSim P_Form P_GenLoop P_Nums P_Rule
     M_ProverLim P_ProverLim P_LimMark.
Import ListNotations.
Open Scope Z_scope.

Section LimLoop.
  Context {Sym St : Type}.
  Variables (Gd : Prop) (T : table) (M : machine Sym St) (Rp : dcfg Sym St -> config -> Prop)
            (halted : St -> Prop).
  Hypothesis MS : msound Gd T M Rp halted.
  Hypothesis SW : seen_wf M Rp.
  Notation i0 := (m_init_sym M).
  Notation M1 := (id_machine M).

  (** ** no index error *)
  Lemma push_nonempty {A} (eqb : A -> A -> bool) h a n h' : push_num vops eqb h a n = Some h' -> h' <> [].
  Proof.
    destruct h as [|b h]; [discriminate|]. cbn [push_num]. intros E. apply some_inj in E. subst h'.
    destruct (eqb (k_sym b) a); [destruct (k_num b)|]; discriminate.
  Qed.
  Lemma single_back {A} (eqb : A -> A -> bool) t a d t' :
    apply_single_move vops eqb t a d = Some t' -> half (opp (ct_dir t')) t' <> [].
  Proof.
    unfold apply_single_move. destruct (pop_one vops (half (ct_dir t) t)) as [h|]; [|discriminate]. cbv zeta.
    destruct (push_num vops eqb (half (opp d) (set_half (ct_dir t) h t)) a (n_of vops 1)) as [h'|] eqn:E; [|discriminate].
    intros E1. apply some_inj in E1. subst t'. cbn [ct_dir]. rewrite half_dir, half_set_same.
    eapply push_nonempty; eauto.
  Qed.
  Lemma chain_back {A} (eqb : A -> A -> bool) t a t' n : (forall d, half d t <> []) ->
    apply_chain_move vops eqb t a = Some (t', n) -> half (opp (ct_dir t')) t' <> [].
  Proof.
    intros F. unfold apply_chain_move. destruct (half (ct_dir t) t) as [|b h]; [discriminate|].
    destruct (k_num b) as [v|].
    2:{ intros E. injection E as <- <-. apply F. }
    cbv zeta. rewrite set_half_dir.
    destruct (push_num vops eqb (half (opp (ct_dir t)) (set_half (ct_dir t) h t)) a v) as [h'|] eqn:E; [|discriminate].
    intros E1. injection E1 as <- <-. rewrite !set_half_dir, half_set_same. eapply push_nonempty; eauto.
  Qed.
  Lemma move_back s s' : (forall d, half d (s_tape s) <> []) -> sim_move vops M1 s = Some s' ->
    half (opp (ct_dir (s_tape s'))) (s_tape s') <> [].
  Proof.
    intros F. unfold sim_move. destruct (ct_top (s_tape s)) as [b|]; [|discriminate].
    destruct (m_trans M1 (k_sym b) (s_state s) (s_dir s)) as [t|]; [|discriminate].
    destruct (cond_eqb (t_cond t) INF_REPEAT).
    { intros E. apply some_inj in E. subst s'. apply F. }
    destruct (m_st_eqb M1 (t_state t) (s_state s) && dir_eqb (t_dir t) (s_dir s) && cond_eqb (t_cond t) RUNNING).
    - destruct (apply_chain_move vops (m_sym_eqb M1) (s_tape s) (t_sym t)) as [[t' n]|] eqn:E; [|discriminate].
      pose proof (chain_back _ _ _ _ _ F E) as H. intros E1.
      destruct n; apply some_inj in E1; subst s'; exact H.
    - destruct (negb (cond_eqb (t_cond t) GAVE_UP)).
      + destruct (apply_single_move vops (m_sym_eqb M1) (s_tape s) (t_sym t) (t_dir t)) as [t'|] eqn:E; [|discriminate].
        pose proof (single_back _ _ _ _ _ E) as H. intros E1. apply some_inj in E1. subst s'. exact H.
      + intros E. apply some_inj in E. subst s'. apply F.
  Qed.

  Lemma ginv_full V m (s : sim val (Sym * option nat) St) : ginv M V m (un_sim s) -> forall d, half d (s_tape s) <> [].
  Proof.
    intros GI d E. pose proof (gi_form _ _ _ _ GI) as [A B].
    change (s_tape (un_sim s)) with (un_tape (s_tape s)) in *. unfold un_tape in *. cbn [ct_l ct_r] in *.
    destruct d; cbn [half] in E; rewrite E in *; [inversion A|inversion B].
  Qed.

  (** one round of the loop keeps the invariant *)
  Lemma ginv_next V m (s s' : sim val Sym St) m' : ginv M V m s -> sim_move vops M s = Some s' -> s_op s' = RUNNING ->
    update_min (nums (s_tape s')) m = POk m' -> mle m' m /\ Forall (above m') (nums (s_tape s')) /\ ginv M V m' s'.
  Proof.
    intros GI E Er Eu. destruct (gmove_form M V m s s' GI E Er) as (F1 & F2 & F3 & F4 & F5 & F6 & F7).
    destruct (update_min_ok V (nums (s_tape s')) m (gi_minv _ _ _ _ GI) (pform_nums _ _ _ F1 F3)) as [_ U2].
    destruct (U2 m' Eu) as [L2 A2]. split; [exact L2|]. split; [exact A2|].
    constructor; auto.
    - now apply tform_above.
    - eapply mle_minv; [exact L2|]. apply (gi_minv _ _ _ _ GI).
  Qed.

  Lemma ginv_inc V m (s : sim val Sym St) : ginv M V m s -> ginv M V m (loop_inc s).
  Proof. intros []. constructor; auto. Qed.

  Lemma lim_loop_erase V delta : forall s m mo, ginv M V m (un_sim s) ->
    gen_loop M delta (un_sim s) m = un_pr (lim_loop M delta s m mo).
  Proof.
    induction delta as [|delta IH]; intros s m mo GI; [reflexivity|].
    cbn [gen_loop lim_loop]. change (s_tape (un_sim s)) with (un_tape (s_tape s)). rewrite un_top.
    destruct (ct_top (s_tape s)) as [b|]; cbn [option_map]; [|reflexivity].
    change (k_num (un_blk b)) with (k_num b). destruct (num_le0 (k_num b)); [reflexivity|].
    change (loop_inc (un_sim s)) with (un_sim (loop_inc s)). rewrite un_move.
    pose proof (ginv_inc _ _ _ GI) as GI1. change (loop_inc (un_sim s)) with (un_sim (loop_inc s)) in GI1.
    destruct (sim_move vops M1 (loop_inc s)) as [s1|] eqn:E1; cbn [option_map]; [|reflexivity].
    pose proof (move_back (loop_inc s) s1 (ginv_full _ _ _ GI1) E1) as Hb. cbv zeta.
    destruct (half (opp (ct_dir (s_tape s1))) (s_tape s1)) as [|w h]; [congruence|].
    change (s_op (un_sim s1)) with (s_op s1). destruct (negb (cond_eqb (s_op s1) RUNNING)) eqn:Er; [reflexivity|].
    assert (Er' : s_op s1 = RUNNING) by (destruct (s_op s1); try discriminate; auto).
    change (s_tape (un_sim s1)) with (un_tape (s_tape s1)). rewrite un_nums.
    destruct (update_min (nums (s_tape s1)) m) as [| |m1] eqn:Eu; [reflexivity|reflexivity|].
    apply IH. eapply (ginv_next V m _ (un_sim s1)); eauto.
    - rewrite un_move, E1. reflexivity.
    - change (s_tape (un_sim s1)) with (un_tape (s_tape s1)). now rewrite un_nums.
  Qed.

  (** ** the replayed run *)
  Definition tget2 (mo : touched) (d : dir) : nat := match d with L => fst mo | R => snd mo end.
  Lemma touch_ge mo d i d' : (tget2 mo d' <= tget2 (touch mo d i) d')%nat.
  Proof. destruct i as [i|]; simpl; auto. destruct d, d'; simpl; lia. Qed.
  Lemma touch_in mo d i : id_le (tget2 (touch mo d i) d) i.
  Proof. destruct i as [i|]; simpl; auto. destruct d; simpl; lia. Qed.

  Lemma lim_loop_touch delta : forall s m mo s' m' mo', lim_loop M delta s m mo = POk (s', m', mo') ->
    forall d, (tget2 mo d <= tget2 mo' d)%nat.
  Proof.
    induction delta as [|delta IH]; intros s m mo s' m' mo' E d.
    - simpl in E. injection E as <- <- <-. lia.
    - cbn [lim_loop] in E. destruct (ct_top (s_tape s)) as [b|]; [|discriminate].
      destruct (num_le0 (k_num b)); [discriminate|]. cbv zeta in E.
      destruct (sim_move vops M1 (loop_inc s)) as [s1|]; [|discriminate].
      destruct (half (opp (ct_dir (s_tape s1))) (s_tape s1)) as [|w h]; [discriminate|].
      destruct (negb (cond_eqb (s_op s1) RUNNING)); [discriminate|].
      destruct (update_min (nums (s_tape s1)) m) as [| |m1]; [discriminate|discriminate|].
      specialize (IH _ _ _ _ _ _ E d).
      pose proof (touch_ge mo (ct_dir (s_tape s)) (snd (k_sym b)) d).
      pose proof (touch_ge (touch mo (ct_dir (s_tape s)) (snd (k_sym b))) (opp (ct_dir (s_tape s1))) (snd (k_sym w)) d).
      lia.
  Qed.

  Section Outer.
    Variables (D : dir -> nat) (bm : dir -> bool)
              (out : dir -> list (blk val (Sym * option nat))) (out2 : dir -> list (blk val Sym)).
    Hypothesis Hout : forall d, out d <> [] -> bm d = false /\ out2 d <> [] /\
      exists i, head_id (out d) = Some i /\ (D d < i)%nat.
    Hypothesis Hconst : forall d, Forall (fun b => match k_num b with
      | None => True | Some v => exists n, v = VS (inject_Z n) /\ 1 <= n end) (out2 d).
    Notation M2 := (mark_machine bm M).
    Notation R2 := (mark_Rp Rp).
    Notation srel := (srel bm out out2).

    Lemma side_nums m' d h h2 : side bm out out2 d h h2 -> Forall (above m') (map k_num h) ->
      Forall (above m') (map k_num h2).
    Proof.
      intros (inner & -> & ->). rewrite map_app. intros H. apply Forall_app in H. destruct H as [H _].
      unfold mark. rewrite map_app, !map_map. cbn [k_num un_blk]. apply Forall_app. split; [exact H|].
      pose proof (Hconst d) as Hc. clear -Hc. induction Hc as [|b l Hb _ IH]; simpl; constructor; auto.
      destruct (k_num b) as [v|]; [|exact I]. destruct Hb as (n & -> & Hn). simpl. exists n. auto.
    Qed.

    Lemma replay_loop V V2 delta : forall s m mo s' m' mo' s2, lim_loop M delta s m mo = POk (s', m', mo') ->
      (forall d, (tget2 mo' d <= D d)%nat) -> ginv M V m (un_sim s) ->
      srel s s2 -> ginv M2 V2 m s2 ->
      exists s2', mle m' m /\ ginv M V m' (un_sim s') /\ srel s' s2' /\ ginv M2 V2 m' s2' /\
        forall sg c0, valid sg m' -> gsnap T M2 R2 sg c0 s2 ->
          gsnap T M2 R2 sg c0 s2' /\ zev sg (s_steps s2) + Z.of_nat delta <= zev sg (s_steps s2').
    Proof.
      induction delta as [|delta IH]; intros s m mo s' m' mo' s2 E HD GI SR GI2.
      - simpl in E. injection E as <- <- <-. exists s2. split; [apply mle_refl|]. split; [auto|]. split; [auto|]. split; [auto|].
        intros sg c0 _ G. split; auto. lia.
      - pose proof E as E0. cbn [lim_loop] in E. destruct (ct_top (s_tape s)) as [b|] eqn:Et; [|discriminate].
        destruct (num_le0 (k_num b)); [discriminate|]. cbv zeta in E.
        destruct (sim_move vops M1 (loop_inc s)) as [s1|] eqn:E1; [|discriminate].
        destruct (half (opp (ct_dir (s_tape s1))) (s_tape s1)) as [|w h] eqn:Eh; [discriminate|].
        destruct (negb (cond_eqb (s_op s1) RUNNING)) eqn:Er; [discriminate|].
        assert (Er' : s_op s1 = RUNNING) by (destruct (s_op s1); try discriminate; auto).
        destruct (update_min (nums (s_tape s1)) m) as [| |m1] eqn:Eu; [discriminate|discriminate|].
        pose proof (lim_loop_touch _ _ _ _ _ _ _ E) as Ht.
        assert (B1 : id_le (D (ct_dir (s_tape s))) (snd (k_sym b))).
        { pose proof (touch_in mo (ct_dir (s_tape s)) (snd (k_sym b))) as H1.
          pose proof (touch_ge (touch mo (ct_dir (s_tape s)) (snd (k_sym b))) (opp (ct_dir (s_tape s1))) (snd (k_sym w)) (ct_dir (s_tape s))) as H2.
          specialize (Ht (ct_dir (s_tape s))). specialize (HD (ct_dir (s_tape s))).
          destruct (snd (k_sym b)); simpl in *; auto. lia. }
        assert (B2 : id_le (D (opp (ct_dir (s_tape s1)))) (snd (k_sym w))).
        { pose proof (touch_in (touch mo (ct_dir (s_tape s)) (snd (k_sym b))) (opp (ct_dir (s_tape s1))) (snd (k_sym w))) as H1.
          specialize (Ht (opp (ct_dir (s_tape s1)))). specialize (HD (opp (ct_dir (s_tape s1)))).
          destruct (snd (k_sym w)); simpl in *; auto. lia. }
        pose proof (ginv_inc _ _ _ GI) as GI1. change (loop_inc (un_sim s)) with (un_sim (loop_inc s)) in GI1.
        assert (E1' : sim_move vops M (un_sim (loop_inc s)) = Some (un_sim s1)) by (rewrite un_move, E1; reflexivity).
        destruct (ginv_next V m _ (un_sim s1) m1 GI1 E1' Er') as (L1 & A1 & GI1').
        { change (s_tape (un_sim s1)) with (un_tape (s_tape s1)). now rewrite un_nums. }
        assert (SR1 : srel (loop_inc s) (loop_inc s2)) by exact SR.
        destruct (replay_move M D bm out out2 Hout (loop_inc s) (loop_inc s2) s1 SR1) as (s3 & E3 & SR3 & Er3); auto.
        { exact (gi_dir _ _ _ _ GI). }
        { cbn [loop_inc s_tape]. unfold ct_top in Et.
          destruct (half (ct_dir (s_tape s)) (s_tape s)) as [|b' h']; [discriminate|]. injection Et as ->. exact B1. }
        { rewrite Eh. exact B2. }
        assert (GI2' : ginv M2 V2 m (loop_inc s2)) by (destruct GI2; constructor; auto).
        destruct (gmove_form M2 V2 m (loop_inc s2) s3 GI2' E3 Er3) as (F1 & F2 & F3 & F4 & F5 & F6 & F7).
        assert (GI3 : ginv M2 V2 m1 s3).
        { constructor; auto.
          - apply tform_above; [exact F1|]. apply nums_forall.
            change (s_tape (un_sim s1)) with (un_tape (s_tape s1)) in A1. rewrite un_nums in A1.
            apply nums_forall in A1. destruct A1 as [Al Ar]. destruct SR3 as ([_ S3] & _).
            split; [exact (side_nums m1 L _ _ (S3 L) Al)|exact (side_nums m1 R _ _ (S3 R) Ar)].
          - eapply mle_minv; [exact L1|]. apply (gi_minv _ _ _ _ GI2). }
        destruct (IH _ _ _ _ _ _ s3 E HD GI1' SR3 GI3) as (s4 & L4 & G4 & SR4 & GI4 & Sn).
        exists s4. split; [eapply mle_trans; eauto|]. split; [auto|]. split; [auto|]. split; [auto|].
        intros sg c0 Hv G2.
        assert (Hv1 : valid sg m1) by (eapply mle_valid; eauto).
        assert (Hv0 : valid sg m) by (eapply mle_valid; eauto).
        destruct (gmove Gd T M2 R2 halted (mark_sound bm M Gd T Rp halted MS) (mark_seen_wf bm M Rp SW) sg c0 (loop_inc s2)
                    (ginv_lin _ _ _ _ GI2')) as (s3' & E3' & G3).
        { eapply form_wf; [apply (gi_form _ _ _ _ GI2')|exact Hv0]. }
        { exact G2. }
        rewrite E3 in E3'. injection E3' as <-. destruct (G3 Er3) as [G3a G3b].
        destruct (Sn sg c0 Hv G3a) as [K1 K2]. split; auto. cbn [loop_inc s_steps] in G3b. lia.
    Qed.
  End Outer.
End LimLoop.
