(** * Property C55: the verdict that Macro_Simulator writes into a record *)
Require Import ZArith List Lia Bool Arith.
From Verif Require Import Spec_TM M_Turing_Machine M_Direct M_Tape M_Simulator M_Settings M_Prover M_ProverRun
  M_ProverLim M_ProverRec M_LinRecur M_CTL M_Filters M_Pipeline
  P_Stream P_SimLimited P_Repeat P_Macro P_Simulator P_Settings P_ProverRun P_LimRun P_RecRun P_RecApply P_Direct P_Quint
  P_LinRecur P_Filters P_Pipeline P_CTLTerm P_Answers P_Compute Prop_Macro Prop_Prover Prop_ProverRec Prop_LinRecur Prop_CTL.
Import ListNotations.
Open Scope nat_scope.

(** The largest block size that can come up: the one given, or the limit of the block finder
    (io.proto: 0 is no limit; a fixed multiple is not subject to the limit). *)
Definition largest_block (o : options) : option nat :=
  if o_block_size o =? 0 then
    if (o_block_mult o =? 0) && negb (o_max_block_size o =? 0) then Some (o_max_block_size o) else None
  else Some (o_block_size o).
(** No block can be abandoned: the number of configurations of a block of [k] cells - [n] states, 2
    directions, [k] positions, [m ^ k] contents - is at most a third of the limit on the steps in a block. *)
Definition blocks_covered (n m : nat) (o : options) : Prop :=
  o_backsymbol o = false \/
  exists k, largest_block o = Some k /\ 384 <= o_block_limit o /\ 3 * (n * 2 * k * m ^ k) <= o_block_limit o.

(** what a status must mean *)
Definition status_true (trusted : Prop) (T : table) (s : status) : Prop :=
  match s with
  | Unknown => True
  | Halting k sc q a => (0 <= k)%Z /\ (0 <= sc)%Z /\
      exists explicit tape, halts_at T initial (Z.to_nat k) q a explicit tape /\ score tape (Z.to_nat sc)
  | Infinite source b =>
      (source <> FromSim INF_MACRO_STEP \/ trusted -> nonhalting T initial) /\
      (source <> FromSim INF_MACRO_STEP -> quasi_true T b)
  end.

Lemma enough_mono n m k K lim : 0 < m -> k <= K -> 384 <= lim -> 3 * (n * 2 * K * m ^ K) <= lim -> enough_loops n m k lim.
Proof.
  intros Hm Hk H1 H2. unfold enough_loops, window_configs.
  assert (n * 2 * k * m ^ k <= n * 2 * K * m ^ K).
  { apply Nat.mul_le_mono; [apply Nat.mul_le_mono_l, Hk|]. apply Nat.pow_le_mono_r; lia. }
  lia.
Qed.

Lemma status_from_true tab r st (Gd : Prop) : nodup_report r ->
  report_ok False (table_of tab) r -> (Gd -> report_ok True (table_of tab) r) ->
  status_from r st -> status_true Gd (table_of tab) st.
Proof.
  intros ND H1 H2 [->|[(Ho & reason & states & Hi & ->)|(Ho & a & q & ds & Hd & ->)]]; cbn [status_true]; [exact I| |].
  - split.
    + intros [N|G].
      * unfold report_ok in H1. rewrite Ho in H1. destruct H1 as (r1 & s1 & E & H & _). apply H. rewrite Hi in E. congruence.
      * specialize (H2 G). unfold report_ok in H2. rewrite Ho in H2. destruct H2 as (r1 & s1 & E & H & _). apply H. auto.
    + intros N. eapply report_quasi_ok; eauto. congruence.
  - unfold report_ok in H1. destruct Ho as [Ho|Ho]; rewrite Ho in H1;
      destruct H1 as (q1 & a1 & ds1 & tape & D & S1 & S2 & Hh & Sc & _); rewrite Hd in D; injection D as <- <- <-; eauto 8.
Qed.

Lemma limited_nodup order tab g mc mr next d r : run_limited order tab g mc mr next d = Some r -> nodup_report r.
Proof.
  unfold run_limited. intros E.
  assert (X : forall Sym St (M : machine Sym St),
    match drive M (log_and_apply_lim M mc mr order) d (lprover_init next, sim_init zops M) with
    | Some (_, s) => Some (report_of M s) | None => None end = Some r -> nodup_report r).
  { intros Sym St M. destruct (drive _ _ _ _) as [[p s]|] eqn:Ed; [|discriminate]. intros Q. injection Q as <-.
    apply drive_nodup in Ed; [exact Ed|]. constructor. }
  destruct g; exact (X _ _ _ E).
Qed.
Lemma recursive_nodup tab g mc mr next d r rules : run_recursive tab g mc mr next d = Some (r, rules) -> nodup_report r.
Proof.
  unfold run_recursive. intros E.
  assert (X : forall Sym St (M : machine Sym St),
    match drive M (log_and_apply_r M mc mr) d (rprover_init next, sim_init zops M) with
    | Some (p, s) => Some (report_of M s, map snd (rp_rules p)) | None => None end = Some (r, rules) -> nodup_report r).
  { intros Sym St M. destruct (drive _ _ _ _) as [[p s]|] eqn:Ed; [|discriminate]. intros Q. injection Q as <- _.
    apply drive_nodup in Ed; [exact Ed|]. constructor. }
  destruct g; exact (X _ _ _ E).
Qed.

(** The hypotheses on the prover: [--max-num-reps] is not 0; with [--recursive] only rules are
    recorded that can be trusted (see C52). *)
Definition prover_trusted (next : nat) (tab : ttable) (o : options) : Prop :=
  (o_prover o = Plain \/ o_prover o = Limited -> 0 < o_max_reps o) /\
  (o_prover o = Recursive -> forall g k r rules,
     run_recursive tab g (o_max_configs o) (o_max_reps o) next (Steps k) = Some (r, rules) ->
     forallb trusted_rule rules = true).

Lemma simulate_true order next n m tab o g fuel st (Gd : Prop) :
  (forall A l, incl (order A l) l) -> wf_ttable n m tab -> valid_setting g = true ->
  prover_trusted next tab o -> (Gd -> repeat_trusted n m g) ->
  simulate_machine order next tab o g fuel = Some st -> status_true Gd (table_of tab) st.
Proof.
  intros Ho W V [PT1 PT2] Hg E. apply simulate_from in E as (r & (k & R) & F).
  destruct (o_prover o) eqn:Eo; [contradiction| | |].
  - destruct (run_prover_ok n m tab g (o_max_configs o) (o_max_reps o) next (Steps k) Gd W V ltac:(auto) Hg) as (r' & E' & H1 & H2).
    assert (r' = r) as -> by congruence. eapply status_from_true; eauto. eapply prover_nodup; eauto.
  - destruct (run_limited_ok n m order tab g (o_max_configs o) (o_max_reps o) next (Steps k) Gd Ho W V ltac:(auto) Hg) as (r' & E' & H1 & H2).
    assert (r' = r) as -> by congruence. eapply status_from_true; eauto. eapply limited_nodup; eauto.
  - destruct R as (rules & R).
    destruct (run_recursive_ok n m tab g (o_max_configs o) (o_max_reps o) next (Steps k) r rules Gd W V R (PT2 eq_refl _ _ _ _ R) Hg) as (H1 & H2).
    eapply status_from_true; eauto. eapply recursive_nodup; eauto.
Qed.

(** The status written for a machine is true: if it is "halting", the machine halts after exactly that
    number of steps, with that score, in that cell; if it is "infinite", the machine never halts, and the
    quasihalting status is true (C28).  Whatever the options, the choices of the block finder and the
    order in which sets are gone through.  Missing: a repeat inside a macro step, where the verdict can be
    false if a block may be abandoned, and its quasihalting status even if not; [--recursive] with
    untrusted rules.  Both fail, see below. *)
Theorem C55_status_true_partial :
  forall faster order next n m tab o fuel st,
  wf_ttable n m tab -> (forall A l, incl (order A l) l) -> prover_trusted next tab o ->
  run_options faster order next tab n m o fuel = Some st ->
  status_true (blocks_covered n m o) (table_of tab) st.
Proof.
  intros faster order next n m tab o fuel st W Ho PT. unfold run_options.
  assert (SIM : (if o_run_sim o then find_and_simulate faster order next tab o fuel else Some Unknown) = Some st ->
                status_true (blocks_covered n m o) (table_of tab) st).
  { destruct (o_run_sim o); [|intros E; injection E as <-; exact I]. unfold find_and_simulate.
    match goal with |- match ?b with _ => _ end = _ -> _ => destruct b as [k|] eqn:Ek end; [|discriminate].
    assert (K : 0 < k /\ forall K, largest_block o = Some K -> k <= K).
    { unfold largest_block. destruct (Nat.eqb_spec (o_block_size o) 0) as [E0|E0].
      - apply block_finder_pos in Ek as [K1 K2]. split; [exact K1|]. intros K.
        destruct (Nat.eqb_spec (o_block_mult o) 0) as [Eb|]; [|discriminate]. specialize (K2 Eb). unfold at_most in K2.
        destruct (Nat.eqb_spec (o_max_block_size o) 0); [discriminate|]. cbn [andb negb orb] in *.
        intros Q. injection Q as <-. now apply Nat.leb_le.
      - injection Ek as <-. split; [lia|]. intros K Q. injection Q as <-. lia. }
    destruct K as [K1 K2].
    assert (V : forall b, valid_setting (stack o k b) = true) by (intros b; apply ctl_setting_valid; right; exact K1).
    assert (S0 : simulate_machine order next tab o (stack o k (o_backsymbol o)) fuel = Some st ->
                 status_true (blocks_covered n m o) (table_of tab) st).
    { apply simulate_true with (n := n) (m := m); auto.
      intros [Hb|(K & EK & L1 & L2)]; unfold stack, ctl_setting; [rewrite Hb; now destruct (k =? 1)|].
      destruct (k =? 1); destruct (o_backsymbol o); try exact I. cbn [repeat_trusted].
      apply (enough_mono n m k K); auto. apply W. }
    destruct (o_ctl o); [|exact S0].
    match goal with |- match test_CTL ?a ?b ?c ?d ?e with _ => _ end = _ -> _ => destruct (test_CTL a b c d e) as [[[|] it]|] eqn:Et end;
      [|exact S0|discriminate].
    intros E. injection E as <-. split; [|intros _; exact I]. intros _.
    apply (ctl_sound n m) in Et; [exact Et|exact W|apply V|discriminate]. }
  assert (LIN : (if o_lin_steps o =? 0 then if o_run_sim o then find_and_simulate faster order next tab o fuel else Some Unknown
     else match lr_filter (simple_machine tab) fuel (o_lin_steps o) (o_lin_min o) with
          | Some (Some (_, BNone)) => if o_run_sim o then find_and_simulate faster order next tab o fuel else Some Unknown
          | Some (Some (_, BHalt k score (SRun q) a)) => Some (Halting (Z.of_nat k) (Z.of_nat score) q a)
          | Some (Some (_, BInf b)) => Some (Infinite FromLinRecur b)
          | _ => None end) = Some st -> status_true (blocks_covered n m o) (table_of tab) st).
  { destruct (o_lin_steps o =? 0); [exact SIM|].
    destruct (lr_filter _ _ _ _) as [[[[r|] b]|]|] eqn:El; try discriminate.
    - destruct (C28_lin_recur_quasihalt n m tab _ _ _ _ _ W El) as (q & -> & _ & Hq). intros E. injection E as <-.
      split; [|intros _; exact Hq]. intros _. apply (C25_lin_recurrence_true n m tab _ _ _ _ _ W El).
    - destruct (Nat.eq_dec (o_lin_steps o) 1) as [E1|N1]; [rewrite E1, C26_limit_one_refuted in El; discriminate|].
      destruct (C26_halting_exact n m tab fuel (o_lin_steps o) (o_lin_min o) W N1) as (_ & HH & _).
      destruct b as [|k sc q x|b]; [exact SIM| |].
      + destruct (HH _ _ _ _ El) as (s & e & t & -> & Hh & Sc). intros E. injection E as <-.
        cbn [status_true]. rewrite !Nat2Z.id. split; [lia|]. split; [lia|]. eauto.
      + exfalso. unfold lr_filter in El. pose proof (detect_ok n m tab W fuel (o_lin_steps o) N1) as D.
        destruct (lin_detect_not_min _ _ _) as [[[[r0|] b0]|]|]; try discriminate.
        * destruct (o_lin_min o); [destruct (period_search _ _ _)|]; discriminate.
        * injection El as ->. exact D. }
  destruct (o_reverse o); [|exact LIN].
  destruct (is_infinite tab n m) as [[|]|] eqn:Er; [|exact LIN|discriminate].
  intros E. injection E as <-. split; [|intros _; exact I]. intros _. exact (is_infinite_ok n m tab W Er).
Qed.

(** ** Every run ends with a status: with enough fuel there is an answer, so no exception is raised
    (index, unpacking, division by zero, failed assertion) and no loop is endless - neither the search
    of the block finder, which has no limit of its own by default, nor that of CTL2. *)
Theorem C55_answers :
  forall faster order next n m tab o,
  wf_ttable n m tab -> (forall A l, incl (order A l) l) ->
  o_lin_steps o <> 1 -> o_prover o = Plain \/ o_prover o = Limited -> 0 < o_max_reps o -> 0 < o_max_loops o ->
  exists needed, forall fuel, needed <= fuel ->
  exists st, run_options faster order next tab n m o fuel = Some st.
Proof.
  intros faster order next n m tab o W Ho HL HP HR HM.
  assert (SIM : exists needed, forall fuel, needed <= fuel ->
    exists st, (if o_run_sim o then find_and_simulate faster order next tab o fuel else Some Unknown) = Some st).
  { destruct (o_run_sim o); [|exists 0; eauto].
    set (size fuel := if o_block_size o =? 0 then
        block_finder faster tab (o_block_limit o) (o_back_limit o) fuel (if o_max_loops o =? 0 then 100 else o_max_loops o / 100)
                     (o_block_mult o) (o_max_block_mult o) (o_max_block_size o)
      else Some (o_block_size o)).
    assert (K : exists k, 0 < k /\ forall fuel, S (S (o_block_limit o)) <= fuel -> size fuel = Some k).
    { unfold size. destruct (Nat.eqb_spec (o_block_size o) 0) as [E|E]; [|exists (o_block_size o); split; [lia|auto]].
      destruct (block_finder_total n m tab W faster (o_block_limit o) (o_back_limit o) (S (S (o_block_limit o)))
                  (if o_max_loops o =? 0 then 100 else o_max_loops o / 100) (o_block_mult o) (o_max_block_mult o) (o_max_block_size o)
                  ltac:(lia)) as (k & Ek).
      exists k. split; [exact (proj1 (block_finder_pos _ _ _ _ _ _ _ _ _ _ Ek))|].
      intros fuel F. eapply block_finder_mono; eauto. }
    destruct K as (k & K1 & K2).
    assert (V : forall b, valid_setting (stack o k b) = true) by (intros b; apply ctl_setting_valid; right; exact K1).
    exists (S (S (o_block_limit o)) + o_max_loops o + S (2 * num_states n m (stack o k true) * S (6 * num_symbols m (stack o k true)))).
    intros fuel F. unfold find_and_simulate. fold (size fuel). rewrite K2 by lia.
    destruct (simulate_total order next n m tab o (stack o k (o_backsymbol o)) fuel Ho W (V _) HP HR HM ltac:(lia)) as (st & Est).
    destruct (o_ctl o); [|eauto].
    match goal with |- context [test_CTL ?a ?b ?c ?d ?e] =>
      destruct (test_CTL_total n m a b c d e W (V true) ltac:(lia)) as (ans & it & ->) end.
    destruct ans; eauto. }
  destruct SIM as (N & SIM). exists (S (o_lin_steps o) + N). intros fuel F. specialize (SIM fuel ltac:(lia)).
  unfold run_options.
  assert (LIN : exists st, (if o_lin_steps o =? 0 then if o_run_sim o then find_and_simulate faster order next tab o fuel else Some Unknown
     else match lr_filter (simple_machine tab) fuel (o_lin_steps o) (o_lin_min o) with
          | Some (Some (_, BNone)) => if o_run_sim o then find_and_simulate faster order next tab o fuel else Some Unknown
          | Some (Some (_, BHalt k score (SRun q) a)) => Some (Halting (Z.of_nat k) (Z.of_nat score) q a)
          | Some (Some (_, BInf b)) => Some (Infinite FromLinRecur b)
          | _ => None end) = Some st).
  { destruct (Nat.eqb_spec (o_lin_steps o) 0) as [|N0]; [exact SIM|].
    destruct (C26_halting_exact n m tab fuel (o_lin_steps o) (o_lin_min o) W HL) as (H1 & H2 & _).
    destruct (lr_filter (simple_machine tab) fuel (o_lin_steps o) (o_lin_min o)) as [[[[r|] b]|]|] eqn:El.
    - destruct (C28_lin_recur_quasihalt n m tab _ _ _ _ _ W El) as (q & -> & _). eauto.
    - destruct b as [|k sc q x|b]; [exact SIM| |eauto]. destruct (H2 _ _ _ _ eq_refl) as (s & e & t & -> & _). eauto.
    - congruence.
    - exfalso. pose proof (detect_ok n m tab W fuel (o_lin_steps o) HL) as D. unfold lr_filter in El.
      destruct (lin_detect_not_min _ _ _) as [[[[r0|] b0]|]|]; try discriminate.
      + destruct (o_lin_min o); [destruct (period_search _ _ _)|]; discriminate.
      + destruct D as [D|([D|D] & _)]; try lia. pose proof (Nat.pow_gt_lin_r 2 fuel ltac:(lia)). lia. }
  destruct (o_reverse o); [|exact LIN]. destruct (is_infinite_total n m tab W) as (b & ->). destruct b; [eauto|exact LIN].
Qed.

(** ** Examples *)

(** the defaults (Macro_Simulator.py:32-49, Block_Finder.py:30-38, Proof_System.py:34-49, Turing_Machine.py:358 and 451) *)
Definition defaults : options :=
  {| o_reverse := true; o_lin_steps := 127; o_lin_min := false; o_run_sim := true; o_block_size := 0; o_backsymbol := true;
     o_ctl := true; o_max_loops := 1000; o_tape_limit := 50; o_block_mult := 0; o_max_block_mult := 2; o_max_block_size := 0;
     o_prover := Plain; o_max_configs := Z.to_nat 100000; o_max_reps := 10; o_block_limit := Z.to_nat 10000; o_back_limit := Z.to_nat 1000 |}.
(** the defaults but for the filters in front, the block size, the backsymbol layer, CTL, the limit of loops and the prover *)
Definition but (rev : bool) (lin k : nat) (back ctl : bool) (loops : nat) (p : prover_kind) : options :=
  {| o_reverse := rev; o_lin_steps := lin; o_lin_min := false; o_run_sim := true; o_block_size := k; o_backsymbol := back;
     o_ctl := ctl; o_max_loops := loops; o_tape_limit := 50; o_block_mult := 0; o_max_block_mult := 2; o_max_block_size := 0;
     o_prover := p; o_max_configs := Z.to_nat 100000; o_max_reps := 10; o_block_limit := Z.to_nat 10000; o_back_limit := Z.to_nat 1000 |}.
(** Block_Finder.py:153, [chain_factor > 2 * max_chain_factor] *)
Definition twice (a b : Z * Z) : bool := (2 * fst b * snd a <? fst a * snd b)%Z.
Notation the_run tab n m o := (run_options twice (fun _ l => l) 0 tab n m o (Z.to_nat 20000)).

Definition bb5_rows : list quint :=
  let q a b c d e := Quint a b (Some c) d (SRun e) in
  [q 0 0 1 R 1; q 0 1 1 L 2; q 1 0 1 R 2; q 1 1 1 R 1; q 2 0 1 R 3; q 2 1 0 L 4; q 3 0 1 L 0; q 3 1 1 L 3;
                            Quint 4 0 (Some 1) R SHalt; q 4 1 0 L 0].
Definition bb5 : ttable := match tm_from_quintuples bb5_rows 5 2 with Some t => t | None => [] end.
Lemma bb5_wf : wf_ttable 5 2 bb5.
Proof. apply (quintuples_wf bb5_rows); [lia|lia|reflexivity]. Qed.

(** The fifth busy beaver with the filters and the prover: all of its 47176870 steps. *)
Example pipeline_bb5 : the_run bb5 5 2 (but true 127 0 true true (Z.to_nat 10000) Plain) = Some (Halting 47176870 4098 4 0).
Proof. vm_cast_no_check (@eq_refl (option status) (Some (Halting 47176870 4098 4 0))). Qed.
Lemma halting_true G T k sc q a : status_true G T (Halting k sc q a) ->
  exists explicit tape, halts_at T initial (Z.to_nat k) q a explicit tape /\ score tape (Z.to_nat sc).
Proof. intros (_ & _ & H). exact H. Qed.
(** hence these are its steps: the hypotheses of the theorem hold *)
Example bb5_halts : exists explicit tape,
  halts_at (table_of bb5) initial (Z.to_nat 47176870) 4 0 explicit tape /\ score tape (Z.to_nat 4098).
Proof.
  assert (PT : prover_trusted 0 bb5 (but true 127 0 true true (Z.to_nat 10000) Plain)).
  { split; [intros _; cbn; lia|discriminate]. }
  eapply halting_true, (C55_status_true_partial twice (fun _ l => l) 0 5 2 bb5 _ _ _ bb5_wf (fun _ l => incl_refl l) PT pipeline_bb5).
Qed.
(** every source of a verdict *)
Example pipeline_reverse : the_run ltab 3 2 defaults = Some (Infinite FromReverse QUndecided).
Proof. vm_cast_no_check (@eq_refl (option status) (Some (Infinite FromReverse QUndecided))). Qed.
Example pipeline_linear : the_run qtab 3 2 defaults = Some (Infinite FromLinRecur (QHalt 1 (SRun 0))).
Proof. vm_cast_no_check (@eq_refl (option status) (Some (Infinite FromLinRecur (QHalt 1 (SRun 0))))). Qed.
Example pipeline_ctl : the_run bouncer 2 2 (but false 0 0 true true 1000 Plain) = Some (Infinite FromCTL QUndecided).
Proof. vm_cast_no_check (@eq_refl (option status) (Some (Infinite FromCTL QUndecided))). Qed.
Example pipeline_prover : the_run bouncer 2 2 (but false 0 0 true false 1000 Plain) = Some (Infinite (FromSim INF_PROOF_SYSTEM) QNot).
Proof. vm_cast_no_check (@eq_refl (option status) (Some (Infinite (FromSim INF_PROOF_SYSTEM) QNot))). Qed.
Example pipeline_unknown : the_run bb5 5 2 defaults = Some Unknown.
Proof. vm_cast_no_check (@eq_refl (option status) (Some Unknown)). Qed.
(** [blocks_covered] holds for the defaults of Enumerate with at most 5 cells in a block *)
Example covered_example : blocks_covered 5 2
  {| o_reverse := true; o_lin_steps := 127; o_lin_min := false; o_run_sim := true; o_block_size := 0; o_backsymbol := true;
     o_ctl := true; o_max_loops := 1000; o_tape_limit := 50; o_block_mult := 0; o_max_block_mult := 2; o_max_block_size := 5;
     o_prover := Plain; o_max_configs := Z.to_nat 100000; o_max_reps := 10; o_block_limit := Z.to_nat 10000; o_back_limit := Z.to_nat 1000 |}.
Proof. right. exists 5. split; [reflexivity|]. cbn [o_block_limit]. split; apply Nat.leb_le; vm_compute; reflexivity. Qed.

(** ** What is not so *)

(** With a block size of 3 and the defaults otherwise, a machine that halts is written down as infinite:
    a block is abandoned after [max_block] steps and taken for one that repeats (C07). *)
Theorem C55_abandoned_block_refuted :
  wf_ttable 137 98 delay_tab /\
  (exists b, the_run delay_tab 137 98 (but true 127 3 true true 1000 Plain) = Some (Infinite (FromSim INF_MACRO_STEP) b)) /\
  exists tape, halts_at (table_of delay_tab) initial (Z.to_nat 10132) 129 0 false tape.
Proof.
  split; [exact delay_wf|]. split; [|exact delay_halts]. exists QNot.
  vm_cast_no_check (@eq_refl (option status) (Some (Infinite (FromSim INF_MACRO_STEP) QNot))).
Qed.

(** With [--recursive] a machine that halts is written down as infinite (C52). *)
Theorem C55_recursive_refuted :
  wf_ttable 38 8 meta_bad /\
  (exists source b, the_run meta_bad 38 8 (but true 127 1 false true 1000 Recursive) = Some (Infinite source b)) /\
  exists tape, halts_at (table_of meta_bad) initial (Z.to_nat 45525) 21 2 true tape.
Proof.
  split; [exact meta_bad_wf|]. split; [|exact (proj2 (proj2 C52_infinite_verdict_refuted))].
  exists (FromSim INF_CHAIN_STEP), (QHalt 45580 (SRun 28)).
  vm_cast_no_check (@eq_refl (option status) (Some (Infinite (FromSim INF_CHAIN_STEP) (QHalt 45580 (SRun 28))))).
Qed.

(** A machine that quasihalts is written down as one that does not, when the repeat is inside a block. *)
Theorem C55_quasihalt_refuted :
  the_run qtab 3 2 (but false 0 2 true true 1000 Plain) = Some (Infinite (FromSim INF_MACRO_STEP) QNot) /\
  ~ quasi_true (table_of qtab) QNot.
Proof.
  split; [|exact (proj2 C28_macro_repeat_refuted)].
  vm_cast_no_check (@eq_refl (option status) (Some (Infinite (FromSim INF_MACRO_STEP) QNot))).
Qed.

(** [--lin-steps=1] raises an exception for every machine that is not caught by the filter before. *)
Theorem C55_lin_one_refuted :
  forall faster order next tab n m o fuel, o_lin_steps o = 1 -> is_infinite tab n m <> Some true \/ o_reverse o = false ->
  run_options faster order next tab n m o fuel = None.
Proof.
  intros faster order next tab n m o fuel E N. unfold run_options. rewrite E, C26_limit_one_refuted. cbn [Nat.eqb].
  destruct (o_reverse o); [|reflexivity]. destruct (is_infinite tab n m) as [[|]|]; try reflexivity.
  destruct N; congruence.
Qed.

(** Without prover the simulation ends with an exception, whatever the machine: nothing is written. *)
Theorem C55_no_prover_refuted :
  forall order next tab o g fuel, o_prover o = NoProver -> simulate_machine order next tab o g fuel = None.
Proof. intros order next tab o g fuel E. unfold simulate_machine. rewrite E. now destruct g. Qed.

Print Assumptions C55_status_true_partial.
Print Assumptions C55_answers.
Print Assumptions C55_abandoned_block_refuted.
Print Assumptions C55_recursive_refuted.
Print Assumptions C55_quasihalt_refuted.
Print Assumptions C55_lin_one_refuted.
Print Assumptions C55_no_prover_refuted.
