(** * Identifiers of blocks do not influence the generalised run *)
Require Import ZArith List Lia Bool Arith QArith Qround Permutation.
From Verif Require Import Spec_TM M_Turing_Machine M_Expr M_Tape M_Simulator M_Settings M_Prover M_ProverLim.
Import ListNotations.
Open Scope Z_scope.

Section Erase.
  Context {Sym St : Type} (M : machine Sym St).
  Notation M1 := (id_machine M).
  Notation un := (map (@un_blk val Sym (option nat))).

  Lemma un_half d (t : ctape val (Sym * option nat)) : half d (un_tape t) = un (half d t).
  Proof. destruct d; reflexivity. Qed.
  Lemma un_set_half d h (t : ctape val (Sym * option nat)) :
    un_tape (set_half d h t) = set_half d (un h) (un_tape t).
  Proof. destruct d; reflexivity. Qed.
  Lemma un_top (t : ctape val (Sym * option nat)) : ct_top (un_tape t) = option_map un_blk (ct_top t).
  Proof. unfold ct_top. change (ct_dir (un_tape t)) with (ct_dir t). rewrite un_half. now destruct (half (ct_dir t) t). Qed.
  Lemma un_pop h : pop_one vops (un h) = option_map un (pop_one vops h).
  Proof.
    destruct h as [|[[s i] [n|]] h]; simpl; auto.
    match goal with |- context[if ?b then _ else _] => destruct b end; reflexivity.
  Qed.
  Lemma un_push h a n :
    push_num vops (m_sym_eqb M) (un h) (fst a) n = option_map un (push_num vops (m_sym_eqb M1) h a n).
  Proof.
    destruct h as [|[[s i] [k|]] h]; simpl; auto; destruct (m_sym_eqb M s (fst a)); reflexivity.
  Qed.
  Lemma un_single t a d :
    apply_single_move vops (m_sym_eqb M) (un_tape t) (fst a) d =
    option_map un_tape (apply_single_move vops (m_sym_eqb M1) t a d).
  Proof.
    unfold apply_single_move. change (ct_dir (un_tape t)) with (ct_dir t).
    rewrite un_half, un_pop. destruct (pop_one vops (half (ct_dir t) t)) as [h|]; cbn [option_map]; auto.
    rewrite <- un_set_half, un_half, un_push.
    destruct (push_num vops (m_sym_eqb M1) (half (opp d) (set_half (ct_dir t) h t)) a (n_of vops 1)); cbn [option_map]; auto.
    rewrite <- un_set_half. reflexivity.
  Qed.
  Lemma un_chain t a :
    apply_chain_move vops (m_sym_eqb M) (un_tape t) (fst a) =
    option_map (fun tn => (un_tape (fst tn), snd tn)) (apply_chain_move vops (m_sym_eqb M1) t a).
  Proof.
    unfold apply_chain_move. change (ct_dir (un_tape t)) with (ct_dir t). rewrite un_half.
    destruct (half (ct_dir t) t) as [|[[s i] [n|]] h]; cbn [map un_blk k_num option_map]; auto.
    rewrite <- un_set_half. change (ct_dir (un_tape (set_half (ct_dir t) h t))) with (ct_dir (set_half (ct_dir t) h t)).
    rewrite un_half, un_push.
    destruct (push_num vops (m_sym_eqb M1) (half (opp (ct_dir (set_half (ct_dir t) h t))) (set_half (ct_dir t) h t)) a n); cbn [option_map]; auto.
    rewrite <- un_set_half. reflexivity.
  Qed.

  Lemma un_move s : sim_move vops M (un_sim s) = option_map un_sim (sim_move vops M1 s).
  Proof.
    unfold sim_move. cbn [un_sim s_tape s_state s_dir s_steps s_loops s_op s_details s_seen s_inf s_rules]. rewrite un_top.
    destruct (ct_top (s_tape s)) as [[[a i] n]|]; cbn [option_map]; auto.
    cbn [un_blk k_sym fst id_machine m_trans s_state s_dir].
    destruct (m_trans M a (s_state s) (s_dir s)) as [t|]; cbn [option_map]; auto.
    change (m_st_eqb M1) with (m_st_eqb M).
    cbn [id_trans t_cond t_state t_dir t_steps t_seen t_sym t_details].
    destruct (cond_eqb (t_cond t) INF_REPEAT); auto.
    destruct (m_st_eqb M (t_state t) (s_state s) && dir_eqb (t_dir t) (s_dir s) && cond_eqb (t_cond t) RUNNING).
    - pose proof (un_chain (s_tape s) (t_sym t, None)) as H. cbn [fst] in H.
      cbn [s_tape]. rewrite H. cbn [m_sym_eqb id_machine].
      destruct (apply_chain_move _ _ (s_tape s) (t_sym t, None)) as [[t' [n'|]]|]; reflexivity.
    - destruct (negb (cond_eqb (t_cond t) GAVE_UP)); auto.
      pose proof (un_single (s_tape s) (t_sym t, None) (t_dir t)) as H. cbn [fst] in H.
      cbn [s_tape]. rewrite H. cbn [m_sym_eqb id_machine].
      destruct (apply_single_move _ _ (s_tape s) (t_sym t, None) (t_dir t)); reflexivity.
  Qed.

  Lemma un_nums {N} (t : ctape N (Sym * option nat)) : nums (un_tape t) = nums t.
  Proof. unfold nums, un_tape. cbn [ct_l ct_r]. rewrite !map_map. reflexivity. Qed.

  Definition un_pr (x : pr (sim val (Sym * option nat) St * ndict Q * touched)) : pr (sim val Sym St * ndict Q) :=
    match x with PExn => PExn | PFail => PFail | POk (s, m, _) => POk (un_sim s, m) end.

  Definition full (t : ctape val (Sym * option nat)) : Prop := ct_l t <> [] /\ ct_r t <> [].

  (** the loop with identifiers is the loop without; the only extra exception is an empty half *)
  Lemma un_loop delta : forall s m mo,
    (gen_loop M delta (un_sim s) m = un_pr (lim_loop M delta s m mo)) \/
    lim_loop M delta s m mo = PExn.
  Proof.
    induction delta as [|delta IH]; intros s m mo; [left; reflexivity|].
    cbn [gen_loop lim_loop]. change (s_tape (un_sim s)) with (un_tape (s_tape s)). rewrite un_top.
    destruct (ct_top (s_tape s)) as [b|]; cbn [option_map]; [|auto].
    change (k_num (un_blk b)) with (k_num b). destruct (num_le0 (k_num b)); [auto|].
    change (loop_inc (un_sim s)) with (un_sim (loop_inc s)). rewrite un_move.
    destruct (sim_move vops M1 (loop_inc s)) as [s1|]; cbn [option_map]; [|auto].
    destruct (half (opp (ct_dir (s_tape s1))) (s_tape s1)) as [|w h]; [auto|].
    change (s_op (un_sim s1)) with (s_op s1). destruct (negb (cond_eqb (s_op s1) RUNNING)); [auto|].
    change (s_tape (un_sim s1)) with (un_tape (s_tape s1)). rewrite un_nums.
    destruct (update_min (nums (s_tape s1)) m); auto.
  Qed.
End Erase.
