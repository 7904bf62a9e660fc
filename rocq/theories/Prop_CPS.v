(** * C33: closed position sets *)
From Coq Require Import ZArith List Lia Bool Arith.
From Verif Require Import Spec_TM M_Turing_Machine M_CPS P_Stream P_SimLimited P_Macro P_CPS P_Compute Prop_Macro Prop_Prover Prop_LinRecur Prop_CTL.
Import ListNotations.
Open Scope Z_scope.

Lemma lset_Forall {A} (P : A -> Prop) l : forall i x, Forall P l -> P x -> Forall P (lset l i x).
Proof.
  induction l as [|a l IH]; intros i x F Px; [destruct i; exact F|].
  inversion F; subst. destruct i; cbn; constructor; auto.
Qed.
Section Simple.
  Variables (n m : nat) (tab : ttable).
  Hypothesis W : wf_ttable n m tab.
  Let M := simple_machine tab.
  Definition psym (a : nat) : Prop := (a < m)%nat.
  Definition pst (s : sstate) : Prop := exists q, s = SRun q /\ (q < n)%nat.

  Lemma simple_lookup a s d : psym a -> pst s -> exists tr, m_trans M a s d = Some tr /\ t_steps tr = 1%nat /\
    (t_cond tr = RUNNING -> psym (t_sym tr) /\ pst (t_state tr)).
  Proof.
    intros Pa (q & -> & Hq). destruct (wf_lookup n m tab q a W Hq Pa) as (row & t & E1 & E2 & C1 & _ & C).
    exists t. split; [cbn; unfold simple_trans; now rewrite E1|]. split; [exact C1|].
    intros Ec. rewrite Ec in C. destruct C as (_ & C2 & C3). split; assumption.
  Qed.

  Lemma sim_loop_simple mx fuel : forall w k loops seen old next,
    Forall psym (w_tape w) -> pst (w_state w) -> 0 <= w_pos w < Z.of_nat (length (w_tape w)) ->
    (mx < loops + fuel)%nat ->
    (loops <= mx)%nat ->
    exists t, sim_loop M mx fuel w k loops seen old next = Some t /\ (k < t_steps t)%nat /\
      (t_cond t = RUNNING -> Forall psym (t_sym t) /\ pst (t_state t)).
  Proof.
    induction fuel as [|fuel IH]; intros w k loops seen old next F Q Hp LF LL; [lia|]. cbn [sim_loop].
    assert (TG : exists a, tget (w_tape w) (w_pos w) = Some a /\ In a (w_tape w)).
    { unfold tget. destruct (w_pos w <? 0) eqn:E; [apply Z.ltb_lt in E; lia|].
      destruct (nth_error (w_tape w) (Z.to_nat (w_pos w))) as [a|] eqn:En;
        [exists a; split; [reflexivity|now apply nth_error_In in En]|apply nth_error_None in En; lia]. }
    destruct TG as (a & -> & Ia). assert (Pa : psym a) by (rewrite Forall_forall in F; auto).
    destruct (simple_lookup a (w_state w) (w_dir w) Pa Q) as (tr & -> & S1 & C).
    set (w' := WCfg _ _ _ _).
    destruct (match old with Some o => wcfg_eqb M w' o | None => false end);
      [eexists; split; [reflexivity|]; cbn; split; [lia|discriminate]|].
    destruct (Nat.ltb mx (S loops)) eqn:El; [eexists; split; [reflexivity|]; cbn; split; [lia|discriminate]|].
    apply Nat.ltb_ge in El.
    destruct (t_cond tr) eqn:Ec; cbn [cond_eqb negb];
      try (eexists; split; [reflexivity|]; cbn; split; [lia|discriminate]).
    destruct (C eq_refl) as [Ps Qs].
    assert (F' : Forall psym (w_tape w')) by (now apply lset_Forall).
    destruct (negb _) eqn:Ep.
    - eexists. split; [reflexivity|]. cbn. split; [lia|]. intros _. split; assumption.
    - apply negb_false_iff, andb_true_iff in Ep as [P1 P2]. apply Z.leb_le in P1. apply Z.ltb_lt in P2.
      destruct (IH w' (k + t_steps tr)%nat (S loops) (merge_seen seen k (t_seen tr))
                 (if Nat.leb next (S loops) then Some w' else old)
                 (if Nat.leb next (S loops) then (next * 2)%nat else next) F' Qs) as (t & E & H1 & H2);
        [split; assumption|lia|lia|].
      exists t. split; [exact E|]. split; [lia|exact H2].
  Qed.
  Lemma sim_limited_simple q w p d mx : Forall psym w -> pst q -> 0 <= p < Z.of_nat (length w) ->
    exists t, sim_limited M q w p d mx = Some t /\ (0 < t_steps t)%nat /\
      (t_cond t = RUNNING -> length (t_sym t) = length w /\ Forall psym (t_sym t) /\ pst (t_state t)).
  Proof.
    intros F Q Hp. destruct (sim_loop_simple mx (S mx) (WCfg q d p w) 0 0 [] None 128 F Q Hp) as (t & E & H1 & H2); [lia|lia|].
    exists t. split; [exact E|]. split; [exact H1|]. intros C. split; [|auto].
    now apply (sim_limited_length M q w p d mx).
  Qed.

  Variables (bs ws : nat).
  Hypothesis bs_pos : (0 < bs)%nat.
  Hypothesis ws_ok : (2 * bs <= ws)%nat.
  Lemma c_ok_sim c mx : c_ok (St := sstate) bs ws psym pst c ->
    exists t, sim_limited M (c_st c) (c_win c) (c_pos c) (c_dir c) mx = Some t /\ (0 < t_steps t)%nat /\
      (t_cond t = RUNNING -> w_ok ws psym pst (t_state t) (t_sym t)).
  Proof.
    intros (E & L & F & Q). destruct (sim_limited_simple (c_st c) (c_win c) (c_pos c) (c_dir c) mx F Q) as (t & E1 & H1 & H2).
    - rewrite E. unfold new_config, zlen. destruct (c_dir c); cbn; lia.
    - exists t. split; [exact E1|]. split; [exact H1|]. intros C. destruct (H2 C) as (X & Y). split; [congruence|exact Y].
  Qed.

  Variables (ord_c : list (@cfg nat sstate) -> list (@cfg nat sstate)) (ord_b : list (list nat) -> list (list nat)).
  Hypothesis ord_c_ok : forall l x, In x (ord_c l) <-> In x l.
  Hypothesis ord_b_ok : forall l x, In x (ord_b l) <-> In x l.
  Lemma simple_run_closed mx mi mc me it g : run M bs ord_c ord_b ws mx mi mc me = Some (true, it, g) ->
    closed_graph M bs ws psym pst g.
  Proof.
    pose proof (simple_msound True n m tab W) as MS. destruct W as (W1 & W2 & _).
    apply loop_closed; try assumption.
    - apply (ms_sym_eq _ _ _ _ _ MS).
    - apply (ms_st_eq _ _ _ _ _ MS).
    - intros c k t C E. destruct (c_ok_sim c k C) as (t' & E' & _ & H). rewrite E in E'. injection E' as <-. exact H.
    - apply new_inv; [exact W2|exists O; auto].
  Qed.
  Lemma simple_run_total mx mi mc me : run M bs ord_c ord_b ws mx mi mc me <> None.
  Proof.
    pose proof (simple_msound True n m tab W) as MS. pose proof W as (W1 & W2 & _).
    apply (run_total M) with (PS := psym) (QS := pst); try assumption.
    - apply (ms_sym_eq _ _ _ _ _ MS).
    - apply (ms_st_eq _ _ _ _ _ MS).
    - intros c k t C E. destruct (c_ok_sim c k C) as (t' & E' & _ & H). rewrite E in E'. injection E' as <-. exact H.
    - exists O; auto.
    - intros c k C. destruct (c_ok_sim c k C) as (t' & E' & _). now rewrite E'.
    - intros c k t C E. destruct (c_ok_sim c k C) as (t' & E' & H & _). rewrite E in E'. injection E' as <-. exact H.
  Qed.
  Lemma simple_closed_nonhalting g : closed_graph M bs ws psym pst g -> nonhalting (table_of tab) initial.
  Proof.
    intros C.
    eapply (closed_graph_nonhalting (table_of tab) M (Rsimple n m) shalted (simple_msound True n m tab W)
             (simple_no_give_up n m tab W) (simple_seen_wf n m tab W)); eassumption.
  Qed.
End Simple.

(** C33: a machine reported by the closed position set filter never halts, whatever the limits
    and whatever order the sets are gone through in *)
Theorem C33_cps_sound n m tab ord_c ord_b bs ws max_steps max_iters max_configs max_edges :
  wf_ttable n m tab ->
  (forall l x, In x (ord_c l) <-> In x l) -> (forall l x, In x (ord_b l) <-> In x l) ->
  (0 < bs)%nat -> (2 * bs <= ws)%nat ->
  cps_filter (simple_machine tab) ord_c ord_b bs ws max_steps max_iters max_configs max_edges = Some true ->
  nonhalting (table_of tab) initial.
Proof.
  intros W OC OB B WS. unfold cps_filter.
  destruct (run _ _ _ _ _ _ _ _ _) as [[[b it] g]|] eqn:E; [|discriminate]. intros X. injection X as ->.
  eapply simple_closed_nonhalting; try eassumption. eapply simple_run_closed; eassumption.
Qed.

(** the filter always answers: no exception, and the limits stop every loop *)
Theorem C33_cps_answers n m tab ord_c ord_b bs ws max_steps max_iters max_configs max_edges :
  wf_ttable n m tab ->
  (forall l x, In x (ord_c l) <-> In x l) -> (forall l x, In x (ord_b l) <-> In x l) ->
  (0 < bs)%nat -> (2 * bs <= ws)%nat ->
  exists b, cps_filter (simple_machine tab) ord_c ord_b bs ws max_steps max_iters max_configs max_edges = Some b.
Proof.
  intros W OC OB B WS. unfold cps_filter.
  destruct (run _ _ _ _ _ _ _ _ _) as [[[b it] g]|] eqn:E; [eauto|].
  exfalso. eapply simple_run_total; [exact W|exact B|exact WS|exact OC|exact OB|exact E].
Qed.

Lemma cps_sizes_ok mn mx w b ws : (1 <= mn)%nat -> In (b, ws) (cps_sizes mn mx w) -> (0 < b)%nat /\ (2 * b <= ws)%nat.
Proof.
  intros H. unfold cps_sizes. destruct (Nat.eqb w 0).
  - rewrite in_map_iff. intros (x & E & I). apply in_seq in I. injection E as <- <-. lia.
  - rewrite in_flat_map. intros (x & _ & I). apply in_map_iff in I as (y & E & I). apply in_seq in I. injection E as <- <-.
    pose proof (Nat.mul_div_le x 2). lia.
Qed.

(** the search over block and window sizes *)
Theorem C33_cps_filter_all_sound n m tab ord_c ord_b min_block max_block max_window max_steps max_iters max_configs max_edges :
  wf_ttable n m tab ->
  (forall l x, In x (ord_c l) <-> In x l) -> (forall l x, In x (ord_b l) <-> In x l) ->
  (1 <= min_block)%nat ->
  exists b, cps_filter_all (simple_machine tab) ord_c ord_b min_block max_block max_window
              max_steps max_iters max_configs max_edges = Some b /\
            (b = true -> nonhalting (table_of tab) initial).
Proof.
  intros W OC OB B. unfold cps_filter_all.
  assert (H : forall b ws, In (b, ws) (cps_sizes min_block max_block max_window) -> (0 < b)%nat /\ (2 * b <= ws)%nat)
    by (intros b ws; now apply cps_sizes_ok).
  induction (cps_sizes min_block max_block max_window) as [|[b ws] l IH]; cbn [cps_search].
  - exists false. split; [reflexivity|discriminate].
  - destruct (H b ws) as [H1 H2]; [now left|].
    destruct (C33_cps_answers n m tab ord_c ord_b b ws max_steps max_iters max_configs max_edges W OC OB H1 H2) as ([|] & E);
      rewrite E.
    + exists true. split; [reflexivity|]. intros _. eapply C33_cps_sound; eassumption.
    + apply IH. intros b' ws' I. apply H. now right.
Qed.

(** the window must hold two blocks: with a window of one block the report can be wrong *)
Definition narrow_rows : list quint :=
 [Quint 0 0 (Some 1%nat) R (SRun 1); Quint 0 1 (Some 1%nat) R SHalt; Quint 1 0 (Some 0%nat) L (SRun 0); Quint 1 1 (Some 1%nat) R SHalt].
Definition narrow := match tm_from_quintuples narrow_rows 2 2 with Some t => t | None => [] end.
Theorem C33_one_block_window_refuted :
  cps_filter (simple_machine narrow) (fun l => l) (fun l => l) 1 1 1000 100 100 100 = Some true /\
  exists t, halts_at (table_of narrow) initial 3 0 1 true t.
Proof. split; [vm_compute; reflexivity|]. apply halts_check_ok. vm_compute. reflexivity. Qed.

Example C33_example :
  wf_ttable 2 2 bouncer /\
  cps_filter_all (simple_machine bouncer) (fun l => l) (fun l => l) 1 3 0 1000 100 100 100 = Some true.
Proof. split; [apply bouncer_wf|vm_compute; reflexivity]. Qed.
Example C33_example_reversed :
  cps_filter (simple_machine bouncer) (@rev _) (@rev _) 1 3 1000 100 100 100 = Some true /\
  cps_filter (simple_machine bb2) (@rev _) (@rev _) 1 3 1000 100 100 100 = Some false /\
  cps_filter (simple_machine bb5) (@rev _) (@rev _) 2 5 1000 100 100 100 = Some false.
Proof. vm_compute. auto. Qed.

Print Assumptions C33_cps_sound.
Print Assumptions C33_cps_answers.
Print Assumptions C33_cps_filter_all_sound.
Print Assumptions C33_one_block_window_refuted.
