(** * The pipeline answers: no exception, no endless loop *)
Require Import ZArith List Lia Bool Arith.
From Verif Require Import Spec_TM M_Turing_Machine M_Direct M_Tape M_Simulator M_Settings M_Prover M_ProverRun
  M_ProverLim M_ProverRec M_LinRecur M_CTL M_Filters M_Pipeline
  P_Stream P_SimLimited P_Repeat P_Macro P_Tape P_Simulator P_Settings P_Apply P_ProverRun P_LimRun P_Direct
  P_LinRecur P_Filters P_CTL P_CTLTerm P_Pipeline.
Import ListNotations.
Open Scope nat_scope.

(** ** simulation without prover *)
Section Plain.
  Context {Sym St : Type}.
  Variables (T : table) (M : machine Sym St) (Rp : dcfg Sym St -> config -> Prop) (halted : St -> Prop).
  Hypothesis MS : msound False T M Rp halted.
  Hypothesis SW : seen_wf M Rp.
  Notation ok := (sim_ok False T M Rp).
  Notation step1 s := (sim_step zops M no_prover (tt, s)).

  Lemma step_total s : ok s -> exists s', step1 s = Some (tt, s') /\ ok s' /\
    (s_op s = RUNNING -> s_loops s' = S (s_loops s)) /\
    (s_op s = RUNNING -> s_op s' = RUNNING -> (s_steps s < s_steps s')%Z) /\ (s_op s <> RUNNING -> s' = s).
  Proof.
    intros H. destruct (sim_step_ok False T M Rp halted MS SW no_prover _ (no_prover_ok T M Rp) tt s I H)
      as ([] & s' & E & _ & H' & L & G & N). exists s'. repeat (split; [assumption|]). intros Q. specialize (N Q). congruence.
  Qed.

  (** [s'] is reached from [s] after [i] loops, still running *)
  Definition after (i : nat) (s s' : sim Z Sym St) : Prop :=
    sim_iter zops M no_prover i (tt, s) = Some (tt, s') /\ s_op s' = RUNNING.

  Lemma after_first i : forall s s', ok s -> after i s s' -> s_op s = RUNNING.
  Proof.
    induction i as [|i IH]; intros s s' H [E O]; cbn [sim_iter] in E; [congruence|].
    destruct (step_total s H) as (s1 & E1 & H1 & _ & _ & N). rewrite E1 in E.
    destruct (cond_eqb (s_op s) RUNNING) eqn:Q; [destruct (s_op s); try discriminate; reflexivity|].
    exfalso. assert (s_op s <> RUNNING) by (intros R; rewrite R in Q; discriminate).
    rewrite (N H0) in E, H1. pose proof (IH s s' H (conj E O)). contradiction.
  Qed.
  Lemma after_ok i : forall s s', ok s -> after i s s' -> ok s' /\ s_loops s' = i + s_loops s.
  Proof.
    induction i as [|i IH]; intros s s' H A; pose proof (after_first _ _ _ H A) as R; destruct A as [E O]; cbn [sim_iter] in E.
    - assert (s' = s) as -> by congruence. auto.
    - destruct (step_total s H) as (s1 & E1 & H1 & L1 & _). rewrite E1 in E. specialize (L1 R).
      destruct (IH s1 s' H1 (conj E O)) as [A B]. split; [exact A|]. lia.
  Qed.
  Lemma seek_after i : forall s s' f, ok s -> after i s s' -> i <= f ->
    loop_seek_loop zops M no_prover f (i + s_loops s) (tt, s) = Some (tt, s').
  Proof.
    induction i as [|i IH]; intros s s' f H A F.
    - destruct A as [E O]. cbn [sim_iter] in E. assert (s' = s) as -> by congruence.
      destruct f; cbn [loop_seek_loop snd plus]; rewrite Nat.ltb_irrefl; reflexivity.
    - pose proof (after_first _ _ _ H A) as R. destruct A as [E O]. cbn [sim_iter] in E.
      destruct (step_total s H) as (s1 & E1 & H1 & L1 & _). rewrite E1 in E. specialize (L1 R).
      destruct f as [|f]; [lia|]. cbn [loop_seek_loop snd]. rewrite R.
      replace (s_loops s <? S i + s_loops s) with true by (symmetry; apply Nat.ltb_lt; lia). cbn [cond_eqb andb]. rewrite E1.
      replace (S i + s_loops s) with (i + s_loops s1) by lia. apply IH; [exact H1|split; assumption|lia].
  Qed.

  Lemma worst_loop_total count : forall s0 s i ml w, ok s0 -> s_loops s0 = 0 -> after i s0 s ->
    (exists sw, after w s0 sw /\ tape_size (s_tape sw) = ml) ->
    worst_loop M count s ml w = Some None \/
    exists ml' w' sw, worst_loop M count s ml w = Some (Some (ml', w')) /\ after w' s0 sw /\ tape_size (s_tape sw) = ml'.
  Proof.
    induction count as [|count IH]; intros s0 s i ml w H0 L0 A (sw & Aw & Ew); cbn [worst_loop]; [right; exists ml, w, sw; auto|].
    destruct (after_ok _ _ _ H0 A) as [Hs Ls]. destruct (step_total s Hs) as (s1 & E1 & H1 & L1 & _). rewrite E1.
    specialize (L1 (proj2 A)).
    destruct (cond_eqb (s_op s1) RUNNING) eqn:R.
    2:{ left. destruct (ml <? _); reflexivity. }
    assert (R1 : s_op s1 = RUNNING) by (destruct (s_op s1); try discriminate; reflexivity).
    assert (A1 : after (S i) s0 s1).
    { split; [|exact R1]. destruct A as [EA _]. clear -EA E1. revert s0 EA. induction i as [|i IH]; intros s0 EA; cbn [sim_iter] in *.
      - assert (s0 = s) as -> by congruence. now rewrite E1.
      - destruct (sim_step zops M no_prover (tt, s0)) as [[[] s2]|]; [|discriminate]. now apply IH. }
    destruct (ml <? tape_size (s_tape s1)).
    - apply (IH s0 s1 (S i)); auto. exists s1. split; [|reflexivity]. replace (s_loops s1) with (S i) by lia. exact A1.
    - apply (IH s0 s1 (S i)); eauto.
  Qed.

  Lemma expand_total (h : list (blk Z Sym)) : (forall b, In b h -> k_num b <> None) -> exists l, M_Pipeline.expand h = Some l.
  Proof.
    induction h as [|b h IH]; intros H; cbn [M_Pipeline.expand]; [eauto|].
    destruct (k_num b) as [z|] eqn:E; [|exfalso; exact (H b ltac:(now left) E)].
    destruct IH as (l & ->); [intros c I; apply H; now right|]. eauto.
  Qed.
  Lemma hwf_finite b0 (h : list (blk Z Sym)) b : hwf b0 h -> In b (removelast h) -> k_num b <> None.
  Proof.
    induction 1 as [|s z h P W IH]; [intros []|]. cbn [removelast]. destruct h as [|c h]; [inversion W|].
    intros [<-|I]; [discriminate|auto].
  Qed.
  Lemma uncompress_total b0 (t : ctape Z Sym) : twf b0 t -> exists l, uncompress_tape t = Some l.
  Proof.
    intros [W1 W2]. unfold uncompress_tape.
    assert (E1 : exists l, M_Pipeline.expand (rev (removelast (ct_l t))) = Some l).
    { apply expand_total. intros b I. apply in_rev in I. exact (hwf_finite b0 _ b W1 I). }
    assert (E2 : exists l, M_Pipeline.expand (removelast (ct_r t)) = Some l).
    { apply expand_total. intros b I. exact (hwf_finite b0 _ b W2 I). }
    destruct E1 as (l & ->), E2 as (r & E2). rewrite E2. eauto.
  Qed.

  Lemma compression_total loops max : exists r, compression_search M loops max = Some r.
  Proof.
    unfold compression_search. destruct (loops =? 0); [eauto|].
    pose proof (sim_init_ok False T M Rp halted MS) as H0.
    assert (A0 : after 0 (sim_init zops M) (sim_init zops M)) by (split; reflexivity).
    destruct (worst_loop_total loops (sim_init zops M) (sim_init zops M) 0 (tape_size (s_tape (sim_init zops M))) 0 H0 eq_refl A0)
      as [->|(ml & w & sw & -> & Aw & Ew)]; [exists (sim_init zops M); auto|eauto|].
    unfold loop_seek. cbn [snd].
    pose proof (seek_after w _ _ (w - 0) H0 Aw ltac:(lia)) as E. cbn [sim_init s_loops] in E. rewrite Nat.add_0_r in E.
    change (s_loops (sim_init zops M)) with 0. rewrite E, Ew, Nat.eqb_refl.
    destruct (after_ok _ _ _ H0 Aw) as [Hw _]. unfold sim_ok in Hw. rewrite (proj2 Aw) in Hw. destruct Hw as (W & _).
    destruct (uncompress_total _ _ W) as (l & ->). eauto.
  Qed.

  (** ** counting the steps of macro and chain moves *)
  Lemma first_not_chain s' : step1 (sim_init zops M) = Some (tt, s') -> s_op s' = RUNNING -> is_chain M (sim_init zops M) = false.
  Proof.
    unfold sim_step, is_chain. cbn [sim_init s_op cond_eqb negb s_tape s_state s_dir no_prover].
    unfold sim_move. cbn [loop_inc sim_init s_tape s_state s_dir].
    set (top := ct_top (ct_init (m_init_sym M) R)). cbn in top. unfold top. cbn [k_sym].
    destruct (m_trans M (m_init_sym M) (m_init_st M) R) as [t|]; [|reflexivity].
    destruct (_ && _ && _) eqn:Ec; [|reflexivity]. destruct (cond_eqb (t_cond t) INF_REPEAT) eqn:Ei.
    - destruct (t_cond t); try discriminate. rewrite andb_false_r in Ec. discriminate.
    - cbn. intros E. injection E as <-. cbn. discriminate.
  Qed.

  Lemma counted_total fuel cutoff : forall c, ok (c_sim c) -> cutoff <= fuel + s_loops (c_sim c) ->
    (0 <= c_macro c)%Z -> (c_sim c = sim_init zops M \/ (0 < c_macro c)%Z) ->
    exists c', counted_seek M fuel cutoff c = Some c' /\
      (s_op (c_sim c') = RUNNING -> 0 < cutoff -> (0 < c_macro c')%Z).
  Proof.
    induction fuel as [|fuel IH]; intros c H F P I; cbn [counted_seek].
    - destruct (_ && _) eqn:E.
      + apply andb_true_iff in E as [E _]. apply Nat.ltb_lt in E. lia.
      + exists c. split; [reflexivity|]. intros O C. destruct I as [I|I]; [|exact I]. rewrite I in F. cbn in F. lia.
    - destruct (_ && _) eqn:E.
      2:{ exists c. split; [reflexivity|]. intros O C. destruct I as [I|I]; [|exact I]. exfalso.
          rewrite I in E. cbn in E. destruct cutoff; [lia|discriminate]. }
      apply andb_true_iff in E as [E1 E2]. assert (R : s_op (c_sim c) = RUNNING) by (destruct (s_op (c_sim c)); try discriminate; reflexivity).
      destruct (step_total _ H) as (s' & Es & H' & L' & G' & _). rewrite Es. specialize (L' R). specialize (G' R).
      destruct (is_chain M (c_sim c)) eqn:Ch.
      + destruct (cond_eqb (s_op s') RUNNING) eqn:R'.
        * assert (RR : s_op s' = RUNNING) by (destruct (s_op s'); try discriminate; reflexivity).
          apply IH; cbn [c_sim c_macro]; [exact H'|lia|exact P|]. destruct I as [I|I]; [|now right]. exfalso.
          rewrite I in Es, Ch. rewrite (first_not_chain s' Es RR) in Ch. discriminate.
        * exists (Counted s' (c_macro c) (c_chain c + (s_steps s' - s_steps (c_sim c)))). split.
          -- destruct fuel; cbn [counted_seek c_sim]; rewrite R', andb_false_r; reflexivity.
          -- cbn [c_sim]. intros Q. rewrite Q in R'. discriminate.
      + destruct (cond_eqb (s_op s') RUNNING) eqn:R'.
        * assert (RR : s_op s' = RUNNING) by (destruct (s_op s'); try discriminate; reflexivity).
          specialize (G' RR). apply IH; cbn [c_sim c_macro]; [exact H'|lia|lia|right; lia].
        * eexists. split; [destruct fuel; cbn [counted_seek c_sim]; rewrite R', andb_false_r; reflexivity|].
          cbn [c_sim]. intros Q. rewrite Q in R'. discriminate.
  Qed.
End Plain.

(** ** a block larger than its step limit is never crossed *)
Lemma sim_loop_leaves {Sym St} (M : machine Sym St) max fuel : forall w nb loops seen old next t,
  M_Turing_Machine.sim_loop M max fuel w nb loops seen old next = Some t ->
  (0 <= w_pos w < Z.of_nat (length (w_tape w)))%Z ->
  length (t_sym t) = length (w_tape w) /\
  (t_cond t = RUNNING ->
   match t_dir t with
   | R => (Z.of_nat loops + (Z.of_nat (length (w_tape w)) - w_pos w) <= Z.of_nat max)%Z
   | L => (Z.of_nat loops + (w_pos w + 1) <= Z.of_nat max)%Z
   end).
Proof.
  induction fuel as [|fuel IH]; intros w nb loops seen old next t; cbn [M_Turing_Machine.sim_loop]; [discriminate|].
  intros E P. destruct (tget (w_tape w) (w_pos w)) as [x|]; [|discriminate].
  destruct (m_trans M x (w_state w) (w_dir w)) as [tr|]; [|discriminate].
  destruct (match old with Some o => _ | None => _ end).
  { injection E as <-. cbn. rewrite lset_length. split; [reflexivity|discriminate]. }
  destruct (Nat.ltb_spec max (S loops)) as [|Lm].
  { injection E as <-. cbn. rewrite lset_length. split; [reflexivity|discriminate]. }
  destruct (cond_eqb (t_cond tr) RUNNING) eqn:Ec; cbn [negb] in E.
  2:{ injection E as <-. cbn [t_sym t_cond]. rewrite lset_length. split; [reflexivity|]. intros Q. rewrite Q in Ec. discriminate. }
  rewrite lset_length in E.
  destruct ((0 <=? w_pos w + dz (t_dir tr)) && (w_pos w + dz (t_dir tr) <? Z.of_nat (length (w_tape w))))%Z eqn:Ep; cbn [negb] in E.
  - apply andb_true_iff in Ep as [P1 P2]. apply Z.leb_le in P1. apply Z.ltb_lt in P2.
    apply IH in E; cbn [w_pos w_tape] in *; rewrite lset_length in *; [|lia].
    destruct E as [E1 E2]. split; [exact E1|]. intros Q. specialize (E2 Q). destruct (t_dir t), (t_dir tr); cbn [dz] in *; lia.
  - injection E as <-. cbn [t_sym t_cond t_dir]. rewrite lset_length. split; [reflexivity|]. intros _.
    apply andb_false_iff in Ep as [Ep|Ep]; [apply Z.leb_gt in Ep|apply Z.ltb_ge in Ep]; destruct (t_dir tr); cbn [dz] in *; lia.
Qed.

Lemma block_not_crossed {Sym St} (M : machine Sym St) k max x s d t : max < k -> length x = k ->
  block_trans M k max x (M_Turing_Machine.Plain s) d = Some t ->
  length (t_sym t) = k /\ (exists s', t_state t = M_Turing_Machine.Plain s') /\ (t_cond t = RUNNING -> t_dir t <> d).
Proof.
  intros Hk Hx. unfold block_trans, sim_limited.
  destruct (M_Turing_Machine.sim_loop _ _ _ _ _ _ _ _ _) as [t0|] eqn:E; [|discriminate]. intros Q. injection Q as <-.
  apply sim_loop_leaves in E; cbn [w_pos w_tape] in *; [|destruct d; lia]. destruct E as [E1 E2].
  cbn [t_sym t_state t_cond t_dir]. split; [congruence|]. split; [eauto|]. intros R Q. specialize (E2 R). rewrite Q in E2.
  destruct d; lia.
Qed.

Lemma back_stuck_loop {Sym St} (M : machine Sym St) k mb mk fuel : mb < k ->
  forall q d pos tape nb loops seen old next t,
  M_Turing_Machine.sim_loop (block_machine M k 0 mb) mk fuel (WCfg (M_Turing_Machine.Plain q) d pos tape) nb loops seen old next = Some t ->
  length tape = 2 -> Forall (fun x => length x = k) tape -> pos = match d with L => 0 | R => 1 end%Z ->
  t_cond t <> RUNNING.
Proof.
  intros Hk. induction fuel as [|fuel IH]; intros q d pos tape nb loops seen old next t; cbn [M_Turing_Machine.sim_loop]; [discriminate|].
  intros E L2 F Hp. cbn [w_tape w_pos w_state w_dir] in E.
  destruct (tget tape pos) as [x|] eqn:Ex; [|discriminate].
  destruct (m_trans (block_machine M k 0 mb) x (M_Turing_Machine.Plain q) d) as [tr|] eqn:Et; [|discriminate].
  assert (Hx : length x = k).
  { rewrite Forall_forall in F. apply F. unfold tget in Ex. destruct (pos <? 0)%Z; [discriminate|]. eapply nth_error_In; eauto. }
  apply block_not_crossed in Et as (T1 & (q' & T2) & T3); auto.
  destruct (match old with Some o => _ | None => _ end); [injection E as <-; discriminate|].
  destruct (mk <? S loops); [injection E as <-; discriminate|].
  destruct (cond_eqb (t_cond tr) RUNNING) eqn:Ec; cbn [negb] in E.
  2:{ injection E as <-. cbn [t_cond]. intros Q. rewrite Q in Ec. discriminate. }
  assert (Er : t_cond tr = RUNNING) by (destruct (t_cond tr); try discriminate; reflexivity). specialize (T3 Er).
  assert (In2 : ((0 <=? pos + dz (t_dir tr)) && (pos + dz (t_dir tr) <? Z.of_nat (length (lset tape (Z.to_nat pos) (t_sym tr)))) = true)%Z).
  { rewrite lset_length, L2. subst pos. destruct d, (t_dir tr); try congruence; reflexivity. }
  rewrite In2 in E. cbn [negb] in E. rewrite T2 in E. eapply IH; [exact E| | |].
  - now rewrite lset_length.
  - rewrite Forall_forall in *. intros y Hy. destruct tape as [|a [|b [|? ?]]]; try discriminate. subst pos.
    destruct d; cbn in Hy; destruct Hy as [<-|[<-|[]]]; auto; apply F; cbn; auto.
  - subst pos. destruct d, (t_dir tr); try congruence; reflexivity.
Qed.

Lemma big_block_stops tab k mb mk loops : 0 < k -> mb < k -> 0 < loops ->
  forall f, chain_factor tab mb mk k loops <> Some (Some f).
Proof.
  intros Hk Hb Hl f. unfold chain_factor.
  set (M := back_machine (block_machine (simple_machine tab) k 0 mb) mk).
  destruct (counted_seek M loops loops _) as [c|] eqn:E; [|discriminate].
  assert (X : s_op (c_sim c) <> RUNNING).
  2:{ destruct (s_op (c_sim c)); cbn [cond_eqb]; try discriminate. congruence. }
  destruct loops as [|loops]; [lia|]. cbn [counted_seek] in E.
  change (s_loops (c_sim (Counted (sim_init zops M) 0 0))) with 0 in E.
  change (s_op (c_sim (Counted (sim_init zops M) 0 0))) with RUNNING in E. cbn [Nat.ltb Nat.leb cond_eqb andb] in E.
  cbn [c_sim] in E. destruct (sim_step zops M no_prover (tt, sim_init zops M)) as [[u s']|] eqn:Es; [|discriminate].
  assert (N : s_op s' <> RUNNING).
  { clear E. unfold sim_step in Es. cbn [sim_init s_op cond_eqb negb s_tape s_state s_dir no_prover] in Es.
    destruct (sim_move _ _ _) as [s1|] eqn:Em; [|discriminate]. assert (s1 = s') as -> by congruence.
    unfold sim_move in Em. cbn [loop_inc s_tape s_state s_dir sim_init] in Em.
    set (top := ct_top (ct_init (m_init_sym M) R)) in Em. cbn in top. unfold top in Em. cbn [k_sym] in Em.
    destruct (m_trans M (repeat 0 k) _ R) as [t|] eqn:Et; [|discriminate].
    assert (NR : t_cond t <> RUNNING).
    { unfold M in Et. cbn [back_machine m_trans] in Et. unfold back_trans in Et. cbn [b_sym b_state m_init_st m_init_sym] in Et.
      destruct (sim_limited _ _ _ _ _ _) as [t0|] eqn:E0; [|discriminate].
      assert (t_cond t0 <> RUNNING).
      { unfold sim_limited in E0. eapply (back_stuck_loop _ k mb mk _ Hb) in E0; auto.
        repeat constructor; cbn; apply repeat_length. }
      destruct (t_sym t0) as [|x [|y [|? ?]]]; try discriminate. destruct (t_dir t0); injection Et as <-; exact H. }
    clear Et top. destruct (t_cond t); try congruence; cbn [cond_eqb] in Em; rewrite ?andb_false_r in Em; cbn [negb] in Em;
      try (destruct (apply_single_move _ _ _ _ _); [|discriminate]); injection Em as <-; cbn; discriminate. }
  assert (Fin : forall c0, c_sim c0 = s' -> counted_seek M loops (S loops) c0 = Some c -> c_sim c = s').
  { intros c0 Q Ec. destruct loops; cbn [counted_seek] in Ec; rewrite Q in Ec;
      (destruct (cond_eqb (s_op s') RUNNING) eqn:R; [exfalso; apply N; destruct (s_op s'); try discriminate; reflexivity|]);
      rewrite andb_false_r in Ec; congruence. }
  destruct (is_chain M (sim_init zops M)); apply Fin in E; try reflexivity; rewrite E; exact N.
Qed.

(** ** Block_Finder *)
Section Finder.
  Variables (n m : nat) (tab : ttable).
  Hypothesis W : wf_ttable n m tab.
  Variable faster : Z * Z -> Z * Z -> bool.
  Variables mb mk : nat.

  Lemma chain_factor_total k loops : 0 < k -> 0 < loops -> exists r, chain_factor tab mb mk k loops = Some r.
  Proof.
    intros Hk Hl. unfold chain_factor. assert (NF : forall P : Prop, False -> P) by tauto.
    pose proof (simple_msound False n m tab W) as MS. pose proof (simple_seen_wf n m tab W) as SW.
    pose proof (block_msound _ _ _ _ _ k Hk 0 Hk mb MS (NF _) SW) as MS2.
    pose proof (block_seen_wf _ _ _ _ _ k 0 mb MS (NF _) SW) as SW2.
    pose proof (back_msound _ _ _ _ _ mk MS2 (NF _) SW2) as MS3.
    pose proof (back_seen_wf _ _ _ _ _ mk MS2 (NF _) SW2) as SW3.
    destruct (counted_total _ _ _ _ MS3 SW3 loops loops
      (Counted (sim_init zops (back_machine (block_machine (simple_machine tab) k 0 mb) mk)) 0 0)) as (c & -> & P).
    - cbn [c_sim]. eapply sim_init_ok; eauto.
    - lia.
    - cbn. lia.
    - now left.
    - destruct (s_op (c_sim c)) eqn:Eo; cbn [cond_eqb]; eauto. specialize (P eq_refl Hl).
      destruct (Z.eqb_spec (c_macro c) 0); [lia|eauto].
  Qed.

  Lemma mult_loop_total opt loops mbm mbs fuel : 0 < opt -> 0 < loops -> forall best om mult, 0 < mult ->
    0 < fuel -> S mb < fuel + mult -> exists k, mult_loop faster tab mb mk fuel loops opt mbm mbs best om mult = Some k.
  Proof.
    intros Ho Hl. induction fuel as [|fuel IH]; intros best om mult Hm F0 F; cbn [mult_loop]; [lia|].
    destruct (_ && _); [|eauto].
    destruct (chain_factor_total (mult * opt) loops ltac:(nia) Hl) as ([f|] & E); rewrite E; [|eauto].
    assert (mult <= mb).
    { destruct (Nat.le_gt_cases (mult * opt) mb) as [|G]; [nia|]. exfalso. now apply (big_block_stops tab (mult * opt) mb mk loops ltac:(nia) G Hl f). }
    destruct (faster f best); apply IH; lia.
  Qed.

  Lemma block_finder_total fuel loops bm mbm mbs : S mb < fuel ->
    exists k, block_finder faster tab mb mk fuel loops bm mbm mbs = Some k.
  Proof.
    intros F. unfold block_finder.
    destruct (compression_total _ _ _ _ (simple_msound False n m tab W) (simple_seen_wf n m tab W) loops mbs) as ([opt|] & E);
      rewrite E; [|eauto].
    destruct (negb (bm =? 0)); [eauto|]. destruct (Nat.eqb_spec loops 0); [eauto|].
    apply compression_bound in E as [E _]. apply mult_loop_total; lia.
  Qed.
End Finder.

(** ** the simulation *)
Lemma loops_total {Sym St P} T (M : machine Sym St) Rp halted lap (Pok : P -> Prop) :
  msound False T M Rp halted -> seen_wf M Rp -> prover_ok T M Rp lap Pok ->
  forall fuel ml tl p s, Pok p -> sim_ok False T M Rp s -> 0 < ml -> ml <= fuel + s_loops s ->
  exists p' s', M_Pipeline.sim_loop M lap fuel ml tl (p, s) = Some (p', s') /\ sim_ok False T M Rp s'.
Proof.
  intros MS SW PO. induction fuel as [|fuel IH]; intros ml tl p s Hp Hs Hm F; cbn [M_Pipeline.sim_loop snd].
  - replace (ml =? 0) with false by (symmetry; apply Nat.eqb_neq; lia).
    replace (s_loops s <? ml) with false by (symmetry; apply Nat.ltb_ge; lia). cbn [orb andb]. eauto.
  - destruct (_ && _) eqn:E; [|eauto].
    apply andb_true_iff in E as [E _]. apply andb_true_iff in E as [_ E].
    assert (R : s_op s = RUNNING) by (destruct (s_op s); try discriminate; reflexivity).
    destruct (sim_step_ok False T M Rp halted MS SW lap Pok PO p s Hp Hs) as (p' & s' & -> & Hp' & Hs' & L' & _).
    specialize (L' R). apply IH; auto. lia.
Qed.
Lemma status_total {Sym St} T (M : machine Sym St) Rp tl s : sim_ok False T M Rp s -> exists st, status_of M tl s = Some st.
Proof.
  intros H. unfold status_of. destruct (tl <? _); [eauto|]. cbn [report_of r_op r_details r_inf]. unfold sim_ok in H.
  destruct (s_op s); eauto.
  - destruct H as (q & a & tape & ds & -> & _). eauto.
  - destruct H as (r & rs & -> & _). eauto.
  - destruct H as (q & a & tape & ds & -> & _). eauto.
Qed.

Lemma simulate_total order next n m tab o g fuel : (forall A l, incl (order A l) l) -> wf_ttable n m tab -> valid_setting g = true ->
  o_prover o = Plain \/ o_prover o = Limited -> 0 < o_max_reps o -> 0 < o_max_loops o -> o_max_loops o <= fuel ->
  exists st, simulate_machine order next tab o g fuel = Some st.
Proof.
  intros Ho W V Hp Hr Hm F. unfold simulate_machine.
  apply (with_machine_prop tab g _ _ (fun x => exists st, x = Some st) (setting_exact n m tab g W V)).
  intros Sym St M (Rp & halted & MS & SW & PU).
  pose proof (sim_init_ok False (table_of tab) M Rp halted MS) as H0.
  destruct Hp as [-> | ->].
  - assert (P0 : rules_ok (table_of tab) M Rp (prover_init next)) by (intros k r []).
    destruct (loops_total _ M Rp halted _ _ MS SW
                (lap_ok False (table_of tab) M Rp halted MS SW PU (o_max_configs o) (o_max_reps o) Hr)
                fuel (o_max_loops o) (o_tape_limit o) (prover_init next) (sim_init zops M) P0 H0 Hm ltac:(cbn; lia)) as (p' & s' & -> & H).
    eapply status_total; eauto.
  - assert (P0 : lrules_ok (table_of tab) M Rp (lprover_init next)) by (intros kl kr r []).
    destruct (loops_total _ M Rp halted _ _ MS SW
                (lap_lim_ok False (table_of tab) M Rp halted MS SW PU order Ho (o_max_configs o) (o_max_reps o) Hr)
                fuel (o_max_loops o) (o_tape_limit o) (lprover_init next) (sim_init zops M) P0 H0 Hm ltac:(cbn; lia)) as (p' & s' & -> & H).
    eapply status_total; eauto.
Qed.

(** more fuel does not change the block size *)
Lemma mult_loop_mono faster tab mb mk loops opt mbm mbs fuel : forall best om mult k,
  mult_loop faster tab mb mk fuel loops opt mbm mbs best om mult = Some k ->
  forall fuel', fuel <= fuel' -> mult_loop faster tab mb mk fuel' loops opt mbm mbs best om mult = Some k.
Proof.
  induction fuel as [|fuel IH]; intros best om mult k E fuel' F; cbn [mult_loop] in E.
  - destruct fuel'; cbn [mult_loop]; destruct (_ && _); try discriminate; exact E.
  - destruct fuel' as [|fuel']; [lia|]. cbn [mult_loop]. destruct (_ && _); [|exact E].
    destruct (chain_factor tab mb mk (mult * opt) loops) as [[f|]|]; [|exact E|discriminate].
    destruct (faster f best); apply (IH _ _ _ _ E); lia.
Qed.
Lemma block_finder_mono faster tab mb mk loops bm mbm mbs fuel fuel' k : fuel <= fuel' ->
  block_finder faster tab mb mk fuel loops bm mbm mbs = Some k -> block_finder faster tab mb mk fuel' loops bm mbm mbs = Some k.
Proof.
  intros F. unfold block_finder. destruct (compression_search _ _ _) as [[opt|]|]; auto.
  destruct (negb _); auto. destruct (loops =? 0); auto. intros E. eapply mult_loop_mono; eauto.
Qed.
