(** * Replaying the generalised run with other blocks far from the head

    The blocks that the run does not touch are replaced by arbitrary others.
    Marks on the symbols keep the simulator from merging a written block with an
    untouched one, so both runs have the same shape. *)
Require Import ZArith List Lia Bool Arith QArith Qround Permutation.
From Verif Require Import Spec_TM M_Turing_Machine P_Stream P_SimLimited P_Macro P_Pump
     M_Expr P_Expr M_Tape M_Simulator P_Tape P_Simulator M_Prover P_Lin P_GenSim P_Form P_GenLoop P_Nums P_Rule
     M_ProverLim P_ProverLim.
Import ListNotations.
Open Scope Z_scope.

(** ** the machine with marked symbols *)
Section Marked.
  Context {Sym St : Type}.
  Variables (bm : dir -> bool) (M : machine Sym St).

  Definition mark_trans (t : transition Sym St) : transition (Sym * bool) St :=
    Trans (t_cond t) (t_details t) (t_sym t, bm (opp (t_dir t))) (t_state t) (t_dir t) (t_steps t) (t_seen t).
  Definition mark_machine : machine (Sym * bool) St :=
    Machine (fun a q d => option_map mark_trans (m_trans M (fst a) q d))
            (fun a b => m_sym_eqb M (fst a) (fst b) && Bool.eqb (snd a) (snd b)) (m_st_eqb M)
            (m_init_sym M, true) (m_init_st M) (fun a => m_eval_sym M (fst a)) (m_eval_st M).
  Definition erase (C : dcfg (Sym * bool) St) : dcfg Sym St :=
    DCfg (fun i => fst (d_l C i)) (fun i => fst (d_r C i)) (d_st C) (d_dir C).

  Lemma erase_apply C a q d : deq (erase (apply_t C a q d)) (apply_t (erase C) (fst a) q d).
  Proof.
    unfold erase, apply_t. destruct d; cbn [d_l d_r d_st d_dir]; destruct (d_dir C);
      repeat split; intros [|i]; reflexivity.
  Qed.
  Lemma erase_facing C : facing (erase C) = fst (facing C).
  Proof. unfold facing. cbn [erase d_dir d_l d_r]. destruct (d_dir C); reflexivity. Qed.
  Lemma erase_deq C C' : deq C C' -> deq (erase C) (erase C').
  Proof. intros (H1 & H2 & H3 & H4). repeat split; cbn [erase d_l d_r d_st d_dir]; auto; intros i; [now rewrite H1|now rewrite H2]. Qed.
  Lemma erase_sc C C' n : deq (erase C) C' -> sc mark_machine C n -> sc M C' n.
  Proof.
    intros (H1 & H2 & H3 & H4) (a & b & Ha & Hb & ->). exists a, b.
    split; [|split].
    - eapply ssum_ext; [exact H1|]. exact Ha.
    - eapply ssum_ext; [exact H2|]. exact Hb.
    - cbn [erase d_st] in H3. now rewrite <- H3.
  Qed.

  Variables (Gd : Prop) (T : table) (Rp : dcfg Sym St -> config -> Prop) (halted : St -> Prop).
  Hypothesis MS : msound Gd T M Rp halted.
  Hypothesis SW : seen_wf M Rp.
  Definition mark_Rp (C : dcfg (Sym * bool) St) (c : config) : Prop := Rp (erase C) c.

  Lemma mark_sound : msound Gd T mark_machine mark_Rp halted.
  Proof.
    constructor.
    - intros [a x] [b y]. cbn [mark_machine m_sym_eqb fst snd].
      rewrite andb_true_iff, (ms_sym_eq _ _ _ _ _ MS), eqb_true_iff. split; [intros [-> ->]; auto|intros [= -> ->]; auto].
    - exact (ms_st_eq _ _ _ _ _ MS).
    - intros C C' c H R0. eapply (ms_ext _ _ _ _ _ MS); [|exact R0]. now apply erase_deq.
    - intros C c R0 E. cbn [mark_machine m_trans] in E.
      apply (ms_total _ _ _ _ _ MS _ _ R0). rewrite erase_facing. cbn [erase d_st d_dir].
      destruct (m_trans M (fst (facing C)) (d_st C) (d_dir C)); [discriminate|reflexivity].
    - intros C c t R0 E. cbn [mark_machine m_trans] in E.
      destruct (m_trans M (fst (facing C)) (d_st C) (d_dir C)) as [t0|] eqn:E0; [|discriminate].
      injection E as <-.
      pose proof (ms_step _ _ _ _ _ MS (erase C) c t0 R0) as H. rewrite erase_facing in H.
      specialize (H E0). unfold outcome in *. cbn [mark_trans t_cond t_sym t_state t_dir t_steps t_seen t_details].
      pose proof (erase_apply C (t_sym t0, bm (opp (t_dir t0))) (t_state t0) (t_dir t0)) as Ea. cbn [fst] in Ea.
      destruct (t_cond t0); auto.
      + destruct H as (H1 & H2 & H3 & c' & H4 & H5). split; [auto|]. split; [auto|]. split; [auto|].
        exists c'. split; auto. eapply (ms_ext _ _ _ _ _ MS); [|exact H5]. now apply deq_sym.
      + destruct H as (H1 & q & s & tape & ds & H2 & H3 & H4 & H5). split; auto.
        exists q, s, tape, ds. split; auto. split; auto. split; auto. intros n Hn. apply H4.
        eapply erase_sc; eauto.
      + destruct H as (H1 & q & s & tape & ds & H2 & H3 & H4 & H5). split; auto.
        exists q, s, tape, ds. split; auto. split; auto. split; auto. intros n Hn. apply H4.
        eapply erase_sc; eauto.
    - intros C c n R0 Hn. eapply (ms_score _ _ _ _ _ MS); [exact R0|]. eapply erase_sc; [apply deq_refl|exact Hn].
    - exact (ms_init _ _ _ _ _ MS).
    - exact (ms_eval_init _ _ _ _ _ MS).
  Qed.

  Lemma mark_seen_wf : seen_wf mark_machine mark_Rp.
  Proof.
    intros C c t R0 E. cbn [mark_machine m_trans] in E.
    destruct (m_trans M (fst (facing C)) (d_st C) (d_dir C)) as [t0|] eqn:E0; [|discriminate].
    injection E as <-. apply (SW (erase C) c t0 R0). now rewrite erase_facing.
  Qed.

  (** denotation of marked tapes *)
  Lemma hden_un {A} (i0 : Sym) (x : A) (h : list (blk Z (Sym * A))) :
    seqv (fun i => fst (hden (i0, x) h i)) (hden i0 (map un_blk h)).
  Proof.
    induction h as [|[[s b] [z|]] h IH]; intros i; simpl; auto.
    unfold sapp. rewrite !repeat_length.
    destruct (nth_error (repeat (s, b) (Z.to_nat z)) i) eqn:E.
    - pose proof (nth_error_In _ _ E) as Hi. apply repeat_spec in Hi. subst p.
      assert (Hl : (i < Z.to_nat z)%nat).
      { rewrite <- (repeat_length (s, b)). apply nth_error_Some. congruence. }
      destruct (nth_error (repeat s (Z.to_nat z)) i) eqn:E'.
      + apply nth_error_In, repeat_spec in E'. now subst.
      + apply nth_error_None in E'. rewrite repeat_length in E'. lia.
    - apply nth_error_None in E. rewrite repeat_length in E.
      destruct (nth_error (repeat s (Z.to_nat z)) i) eqn:E'.
      + assert (H : nth_error (repeat s (Z.to_nat z)) i <> None) by congruence.
        apply nth_error_Some in H. rewrite repeat_length in H. lia.
      + apply IH.
  Qed.
  Lemma tden_un i0 (t : ctape Z (Sym * bool)) (q : St) :
    deq (erase (tden (i0, true) t q)) (tden i0 (un_tape t) q).
  Proof. repeat split; apply hden_un. Qed.
End Marked.

(** ** replaying one move *)
Definition mark {Sym} (b : bool) (h : list (blk val Sym)) : list (blk val (Sym * bool)) :=
  map (fun k => Blk (k_sym k, b) (k_num k)) h.

Section Replay.
  Context {Sym St : Type} (M : machine Sym St).
  Variables (D : dir -> nat) (bm : dir -> bool)
            (out : dir -> list (blk val (Sym * option nat))) (out2 : dir -> list (blk val Sym)).
  Definition head_id (h : list (blk val (Sym * option nat))) : option nat :=
    match h with [] => None | b :: _ => snd (k_sym b) end.
  Definition id_le (D : nat) (i : option nat) : Prop := match i with Some i => (i <= D)%nat | None => True end.

  Hypothesis Hnil : forall d, out d = [] -> out2 d = [] /\ bm d = true.
  Hypothesis Hout : forall d, out d <> [] -> bm d = false /\ out2 d <> [] /\
    exists i, head_id (out d) = Some i /\ (D d < i)%nat.
  Notation M1 := (id_machine M).
  Notation M2 := (mark_machine bm M).

  Definition side (d : dir) (h : list (blk val (Sym * option nat))) (h2 : list (blk val (Sym * bool))) : Prop :=
    exists inner, h = inner ++ out d /\ h2 = mark (bm d) (map un_blk inner) ++ mark true (out2 d).

  Lemma side_cons d b h h2 : side d (b :: h) h2 -> id_le (D d) (snd (k_sym b)) ->
    exists h3, h2 = Blk (fst (k_sym b), bm d) (k_num b) :: h3 /\ side d h h3 /\
      forall b', side d (b' :: h) (Blk (fst (k_sym b'), bm d) (k_num b') :: h3).
  Proof.
    intros (inner & E & ->) Hi. destruct inner as [|x inner]; simpl in E.
    - exfalso. destruct (Hout d) as (_ & _ & i & Ei & Hd); [rewrite <- E; discriminate|].
      rewrite <- E in Ei. simpl in Ei. rewrite Ei in Hi. simpl in Hi. lia.
    - injection E as -> ->. eexists. split; [reflexivity|]. split.
      + exists inner. auto.
      + intros b'. exists (b' :: inner). auto.
  Qed.

  Lemma side_pop d h h2 h' : side d h h2 -> id_le (D d) (head_id h) -> pop_one vops h = Some h' ->
    exists h2', pop_one vops h2 = Some h2' /\ side d h' h2'.
  Proof.
    intros S Hi. destruct h as [|b h]; [discriminate|].
    destruct (side_cons d b h h2 S Hi) as (h3 & -> & S1 & S2).
    destruct b as [[s i] n]. cbn [pop_one k_num k_sym fst] in *. intros E. apply some_inj in E. subst h'.
    eexists. split; [reflexivity|]. destruct n as [n|]; [|apply (S2 (Blk (s, i) None))].
    cbv zeta. destruct (n_eq0 vops (n_add vops n (n_of vops (-1)))); [exact S1|].
    match goal with |- side d (?b :: _) _ => apply (S2 b) end.
  Qed.

  Lemma side_push d h h2 a n h' : side d h h2 -> push_num vops (m_sym_eqb M1) h (a, None) n = Some h' ->
    id_le (D d) (head_id h') ->
    exists h2', push_num vops (m_sym_eqb M2) h2 (a, bm d) n = Some h2' /\ side d h' h2'.
  Proof.
    intros (inner & -> & ->). destruct inner as [|x inner].
    - simpl app at 1. destruct (out d) as [|o ot] eqn:Eo; [discriminate|].
      destruct (Hout d) as (Hb & H2 & i & Ei & Hd); [rewrite Eo; discriminate|].
      rewrite Eo in Ei. simpl in Ei. destruct o as [[s i'] k]. simpl in Ei. subst i'.
      destruct (out2 d) as [|o2 ot2] eqn:Eo2; [congruence|]. cbn [map].
      cbn [push_num k_sym k_num id_machine m_sym_eqb fst mark_machine snd map].
      rewrite Hb. unfold mark at 1 2. cbn [map app push_num k_sym k_num fst snd Bool.eqb]. rewrite andb_false_r.
      destruct (m_sym_eqb M s a).
      + intros E. destruct k as [k|]; injection E as <-; simpl; intros; lia.
      + intros E _. injection E as <-. eexists. split; [reflexivity|].
        exists [Blk (a, None) (Some n)]. rewrite Eo, Eo2, Hb. split; reflexivity.
    - destruct x as [[s i] k]. simpl app at 1. cbn [push_num k_sym k_num id_machine m_sym_eqb fst].
      unfold mark at 1. cbn [map app push_num k_sym k_num m_sym_eqb mark_machine fst snd un_blk].
      rewrite Bool.eqb_reflx, andb_true_r.
      intros E _. injection E as <-. eexists. split; [reflexivity|].
      destruct (m_sym_eqb M s a); [destruct k as [k|]|].
      + exists (Blk (s, i) (Some (n_add vops k n)) :: inner). split; reflexivity.
      + exists (Blk (s, i) None :: inner). split; reflexivity.
      + exists (Blk (a, None) (Some n) :: Blk (s, i) k :: inner). split; reflexivity.
  Qed.

  Definition trel2 (t : ctape val (Sym * option nat)) (t2 : ctape val (Sym * bool)) : Prop :=
    ct_dir t2 = ct_dir t /\ forall d, side d (half d t) (half d t2).

  Lemma trel2_set t t2 d h h2 : trel2 t t2 -> side d h h2 -> trel2 (set_half d h t) (set_half d h2 t2).
  Proof.
    intros [E H] Hs. split; [destruct d; exact E|].
    intros d'. specialize (H d'). destruct d, d'; simpl in *; auto.
  Qed.

  Lemma opp_ne d : opp d <> d.
  Proof. destruct d; discriminate. Qed.
  Lemma half_set_same {N A} d h (t : ctape N A) : half d (set_half d h t) = h.
  Proof. destruct d; reflexivity. Qed.
  Lemma set_half_dir {N A} d h (t : ctape N A) : ct_dir (set_half d h t) = ct_dir t.
  Proof. destruct d; reflexivity. Qed.
  Lemma half_dir {N A} d x (t : ctape N A) : half d (CTape x (ct_l t) (ct_r t)) = half d t.
  Proof. destruct d; reflexivity. Qed.

  Lemma single_replay t t2 a d t' : trel2 t t2 ->
    apply_single_move vops (m_sym_eqb M1) t (a, None) d = Some t' ->
    id_le (D (ct_dir t)) (head_id (half (ct_dir t) t)) ->
    id_le (D (opp (ct_dir t'))) (head_id (half (opp (ct_dir t')) t')) ->
    exists t2', apply_single_move vops (m_sym_eqb M2) t2 (a, bm (opp d)) d = Some t2' /\ trel2 t' t2'.
  Proof.
    intros HT. unfold apply_single_move. rewrite (proj1 HT).
    destruct (pop_one vops (half (ct_dir t) t)) as [h|] eqn:Ep; [|discriminate].
    intros E Hi Hi2. destruct (side_pop _ _ _ _ (proj2 HT (ct_dir t)) Hi Ep) as (h2 & -> & S).
    pose proof (trel2_set _ _ _ _ _ HT S) as HT'. cbv zeta in *.
    destruct (push_num vops (m_sym_eqb M1) (half (opp d) (set_half (ct_dir t) h t)) (a, None) (n_of vops 1)) as [h'|] eqn:Eu; [|discriminate].
    injection E as <-. cbn [ct_dir] in Hi2. rewrite half_dir, half_set_same in Hi2.
    destruct (side_push _ _ _ _ _ _ (proj2 HT' (opp d)) Eu Hi2) as (h2' & -> & S').
    eexists. split; [reflexivity|].
    destruct (trel2_set _ _ _ _ _ HT' S') as [_ H]. split; [reflexivity|]. intros d'.
    rewrite !half_dir. apply H.
  Qed.

  Lemma chain_replay t t2 a t' n : trel2 t t2 ->
    apply_chain_move vops (m_sym_eqb M1) t (a, None) = Some (t', n) ->
    id_le (D (ct_dir t)) (head_id (half (ct_dir t) t)) ->
    id_le (D (opp (ct_dir t'))) (head_id (half (opp (ct_dir t')) t')) ->
    exists t2', apply_chain_move vops (m_sym_eqb M2) t2 (a, bm (opp (ct_dir t))) = Some (t2', n) /\ trel2 t' t2'.
  Proof.
    intros HT. unfold apply_chain_move. rewrite (proj1 HT). pose proof (proj2 HT (ct_dir t)) as S0.
    destruct (half (ct_dir t) t) as [|b h] eqn:Eh; [discriminate|].
    intros E Hi Hi2. destruct (side_cons _ _ _ _ S0 Hi) as (h3 & -> & S1 & _). cbn [k_num].
    destruct (k_num b) as [v|].
    2:{ injection E as <- <-. eexists. split; [reflexivity|exact HT]. }
    pose proof (trel2_set _ _ _ _ _ HT S1) as HT'. cbv zeta in *. rewrite (proj1 HT').
    pose proof (set_half_dir (ct_dir t) h t) as Ed.
    rewrite Ed in *.
    destruct (push_num vops (m_sym_eqb M1) (half (opp (ct_dir t)) (set_half (ct_dir t) h t)) (a, None) v) as [h'|] eqn:Eu; [|discriminate].
    injection E as <- <-.
    assert (Ed2 : ct_dir (set_half (opp (ct_dir t)) h' (set_half (ct_dir t) h t)) = ct_dir t)
      by (now rewrite !set_half_dir).
    rewrite Ed2, half_set_same in Hi2.
    destruct (side_push _ _ _ _ _ _ (proj2 HT' (opp (ct_dir t))) Eu Hi2) as (h2' & -> & S').
    eexists. split; [reflexivity|]. now apply trel2_set.
  Qed.

  Definition srel (s : sim val (Sym * option nat) St) (s2 : sim val (Sym * bool) St) : Prop :=
    trel2 (s_tape s) (s_tape s2) /\ s_state s2 = s_state s /\ s_dir s2 = s_dir s /\
    s_steps s2 = s_steps s /\ s_seen s2 = s_seen s.

  Lemma replay_move s s2 s' : srel s s2 -> ct_dir (s_tape s) = s_dir s ->
    sim_move vops M1 s = Some s' -> s_op s' = RUNNING ->
    id_le (D (ct_dir (s_tape s))) (head_id (half (ct_dir (s_tape s)) (s_tape s))) ->
    id_le (D (opp (ct_dir (s_tape s')))) (head_id (half (opp (ct_dir (s_tape s'))) (s_tape s'))) ->
    exists s2', sim_move vops M2 s2 = Some s2' /\ srel s' s2' /\ s_op s2' = RUNNING.
  Proof.
    intros (HT & E1 & E2 & E3 & E4) Hdir. unfold sim_move.
    unfold ct_top. rewrite (proj1 HT). pose proof (proj2 HT (ct_dir (s_tape s))) as S0.
    destruct (half (ct_dir (s_tape s)) (s_tape s)) as [|b h] eqn:Eh; [discriminate|].
    intros E Hop Hi Hi2. destruct (side_cons _ _ _ _ S0 Hi) as (h3 & -> & S1 & _).
    cbn [k_sym]. cbn [id_machine mark_machine m_trans fst] in *. rewrite E1, E2.
    destruct (m_trans M (fst (k_sym b)) (s_state s) (s_dir s)) as [t|]; [|discriminate].
    cbn [option_map] in *. cbn [id_trans mark_trans t_cond t_state t_dir t_steps t_seen t_sym t_details] in *.
    change (m_st_eqb M1) with (m_st_eqb M) in *. change (m_st_eqb M2) with (m_st_eqb M) in *.
    destruct (cond_eqb (t_cond t) INF_REPEAT).
    { apply some_inj in E. subst s'. discriminate. }
    destruct (m_st_eqb M (t_state t) (s_state s) && dir_eqb (t_dir t) (s_dir s) && cond_eqb (t_cond t) RUNNING) eqn:Ec.
    - change (fun a b0 : Sym * option nat => m_sym_eqb M (fst a) (fst b0)) with (m_sym_eqb M1) in *.
      destruct (apply_chain_move vops (m_sym_eqb M1) (s_tape s) (t_sym t, None)) as [[t' n]|] eqn:Ea; [|discriminate].
      assert (Ed : t_dir t = ct_dir (s_tape s)).
      { apply andb_true_iff in Ec. destruct Ec as [Ec _]. apply andb_true_iff in Ec. destruct Ec as [_ Ec].
        rewrite Hdir. destruct (t_dir t), (s_dir s); try discriminate; reflexivity. }
      assert (Et : s_tape s' = t').
      { destruct n; apply some_inj in E; subst s'; reflexivity. }
      rewrite Et in Hi2.
      destruct (chain_replay _ _ _ _ _ HT Ea) as (t2' & Ea2 & HT').
      { rewrite Eh. exact Hi. } { exact Hi2. }
      rewrite Ed. change (fun a b0 : Sym * bool => m_sym_eqb M (fst a) (fst b0) && Bool.eqb (snd a) (snd b0)) with (m_sym_eqb M2).
      rewrite Ea2. destruct n as [v|]; apply some_inj in E; subst s'; [|discriminate].
      eexists. split; [reflexivity|]. split; [|exact Hop].
      split; [exact HT'|]. cbn [s_state s_dir s_steps s_seen]. rewrite E3, E4. auto.
    - destruct (negb (cond_eqb (t_cond t) GAVE_UP)) eqn:Eg.
      + change (fun a b0 : Sym * option nat => m_sym_eqb M (fst a) (fst b0)) with (m_sym_eqb M1) in *.
        destruct (apply_single_move vops (m_sym_eqb M1) (s_tape s) (t_sym t, None) (t_dir t)) as [t'|] eqn:Ea; [|discriminate].
        apply some_inj in E. subst s'. cbn [s_tape s_op] in *.
        destruct (single_replay _ _ _ _ _ HT Ea) as (t2' & Ea2 & HT').
        { rewrite Eh. exact Hi. } { exact Hi2. }
        change (fun a b0 : Sym * bool => m_sym_eqb M (fst a) (fst b0) && Bool.eqb (snd a) (snd b0)) with (m_sym_eqb M2).
        rewrite Ea2. eexists. split; [reflexivity|]. split; [|exact Hop].
        split; [exact HT'|]. cbn [s_state s_dir s_steps s_seen]. rewrite E3, E4. auto.
      + apply some_inj in E. subst s'. cbn [s_op] in Hop. rewrite Hop in Eg. discriminate.
  Qed.
End Replay.
