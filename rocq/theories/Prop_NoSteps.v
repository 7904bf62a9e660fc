(** * Properties C62 and C63: simulating without counting steps; the counter of variables *)
Require Import ZArith List Lia Bool Arith.
From Verif Require Import Spec_TM M_Turing_Machine M_Direct M_Tape M_Simulator M_Settings M_Prover M_ProverRun
  M_ProverLim M_ProverRec M_LinRecur M_CTL M_Filters M_Pipeline M_NoSteps
  P_Stream P_SimLimited P_Repeat P_Macro P_Simulator P_Settings P_ProverRun P_Pipeline P_NoSteps P_Rename P_Shift
  Prop_Macro Prop_Prover Prop_Pipeline Prop_LinRecur Prop_CTL P_CTLTerm.
Import ListNotations.
Open Scope Z_scope.

(** the drivers whose end does not depend on the step number *)
Definition counts_loops (d : driver) : Prop := match d with Seek _ => False | _ => True end.
Definition reason_of (r : report) : option inf_reason := option_map fst (r_inf r).
Lemma forget_reason i : option_map fst (forget_inf i) = option_map fst i.
Proof. destruct i as [[[] l]|]; reflexivity. Qed.

Lemma no_steps_same tab g mc mr next next' d r : counts_loops d -> run_prover tab g mc mr next d = Some r ->
  run_no_steps tab g mc mr next' d = Some (Report (r_op r) 0 (r_nonzeros r) (r_details r) (forget_inf (r_inf r)) None (r_loops r)).
Proof.
  intros D. unfold run_prover, run_no_steps.
  assert (X : forall Sym St (M : machine Sym St),
    match drive M (log_and_apply M mc mr) d (prover_init next, sim_init zops M) with Some (_, s) => Some (report_of M s) | None => None end = Some r ->
    match ndrive M (nlog_and_apply M mc mr) d (nprover_init next', nsim_init zops M) with Some (_, s) => Some (report_of M s) | None => None end =
    Some (Report (r_op r) 0 (r_nonzeros r) (r_details r) (forget_inf (r_inf r)) None (r_loops r))).
  { intros Sym St M. destruct d as [n|n|z]; [| |contradiction]; cbn [drive ndrive].
    - destruct (sim_iter zops M (log_and_apply M mc mr) n (prover_init next, sim_init zops M)) as [a'|] eqn:E; [|discriminate].
      destruct (iter_rel M mc mr n _ _ _ (init_rel M mr next next') E) as (b' & -> & _ & R). destruct a' as [p s], b' as [p' s']. cbn [snd] in R. subst s'.
      intros [= <-]. reflexivity.
    - unfold loop_seek. cbn [snd sim_init nsim_init s_loops].
      destruct (loop_seek_loop zops M (log_and_apply M mc mr) (n - 0) n (prover_init next, sim_init zops M)) as [a'|] eqn:E; [|discriminate].
      destruct (loop_rel M mc mr n (n - 0) _ _ _ (init_rel M mr next next') E) as (b' & -> & _ & R). destruct a' as [p s], b' as [p' s']. cbn [snd] in R. subst s'.
      intros [= <-]. reflexivity. }
  destruct g; apply X.
Qed.

(** ** C62 *)

(** Without counting steps, calls of step and loop_seek reach the same end in the same number of loops,
    whatever variables the provers use: the same outcome, cell, score, reason of an infinite verdict.  Only the
    steps, the last visits and the recurring states of a rule are not known. *)
Theorem C62_same_run :
  forall tab g mc mr next next' d r, counts_loops d -> run_prover tab g mc mr next d = Some r ->
  exists r', run_no_steps tab g mc mr next' d = Some r' /\
    r_op r' = r_op r /\ r_loops r' = r_loops r /\ r_nonzeros r' = r_nonzeros r /\ r_details r' = r_details r /\
    reason_of r' = reason_of r /\ r_steps r' = 0 /\ r_seen r' = None.
Proof.
  intros tab g mc mr next next' d r D E. eexists. split; [eapply no_steps_same; eauto|]. cbn. unfold reason_of. cbn [r_inf].
  rewrite forget_reason. auto 10.
Qed.

(** So it never raises; the cell and the score of a halt are those of the machine, infinite verdicts are true (for a repeat
    in a macro cell as in C12). *)
Theorem C62_verdicts_true :
  forall n m tab g mc mr next d, wf_ttable n m tab -> valid_setting g = true -> (0 < mr)%nat -> counts_loops d ->
  exists r, run_no_steps tab g mc mr next d = Some r /\
    (r_op r = HALT \/ r_op r = UNDEFINED ->
     exists t from_symbol from_state rest tape,
       r_details r = DCell from_symbol from_state :: rest /\ 0 <= r_nonzeros r /\
       halts_at (table_of tab) initial t from_state from_symbol (cond_eqb (r_op r) HALT) tape /\
       score tape (Z.to_nat (r_nonzeros r))) /\
    (r_op r = INF_REPEAT -> exists reason, reason_of r = Some reason /\
       (reason <> INF_MACRO_STEP \/ repeat_trusted n m g -> nonhalting (table_of tab) initial)).
Proof.
  intros n m tab g mc mr next d W V Hmr D. destruct (C18_halting_exact n m tab g mc mr next d W V Hmr) as (r & E & H).
  destruct (C62_same_run tab g mc mr next next d r D E) as (r' & E' & H1 & H2 & H3 & H4 & H5 & _). exists r'. split; [exact E'|]. rewrite H1, H3, H4, H5. split.
  - intros Ho. destruct (H Ho) as (a & q & rest & tape & A1 & A2 & A3 & A4 & A5). exists (Z.to_nat (r_steps r)), a, q, rest, tape. auto.
  - intros Ho. destruct (C18_infinite_verdicts_partial n m tab g mc mr next d r W V Hmr E Ho) as (reason & states & Hi & Hn & _).
    exists reason. unfold reason_of. rewrite Hi. auto.
Qed.

(** [seek] counts steps; without them a positive limit is never reached: it only returns when the machine has stopped. *)
Theorem C62_seek_ends :
  forall tab g mc mr next fuel z r, 0 < z ->
  with_machine tab g (fun _ _ M =>
    match nseek M (nlog_and_apply M mc mr) fuel z (nprover_init next, nsim_init zops M) with
    | Some (_, s) => Some (report_of M s) | None => None end) = Some r ->
  r_op r <> RUNNING.
Proof.
  intros tab g mc mr next fuel z r Hz.
  assert (X : forall Sym St (M : machine Sym St),
    match nseek M (nlog_and_apply M mc mr) fuel z (nprover_init next, nsim_init zops M) with
    | Some (_, s) => Some (report_of M s) | None => None end = Some r -> r_op r <> RUNNING).
  { intros Sym St M. destruct (nseek _ _ _ _ _) as [[p s]|] eqn:E; [|discriminate]. intros [= <-]. refine (nseek_end _ _ _ _ _ _ _ E). exact Hz. }
  destruct g; apply X.
Qed.

(** *** The record *)

(** The status written by [simulate_machine] with [--no-steps], or with [--exp-linear-rules], is that of the counting simulation, except that
    the number of steps is written as 0, a quasihalting status as undecided. *)
Definition status_without_steps (s : status) : status :=
  match s with
  | Unknown => Unknown
  | Halting _ score q a => Halting 0 score q a
  | Infinite source _ => Infinite source QUndecided
  end.
Lemma status_forget {Sym St} (M : machine Sym St) tl s st : status_of M tl s = Some st ->
  status_of M tl (forget 0 s) = Some (status_without_steps st).
Proof.
  assert (Q : report_quasi (report_of M (forget 0 s)) = QUndecided).
  { unfold report_quasi. cbn [report_of r_seen forget s_seen]. destruct (r_inf _) as [[? ?]|]; reflexivity. }
  unfold status_of. rewrite Q. change (s_tape (forget 0 s)) with (s_tape s). destruct (Nat.ltb _ _); [intros [= <-]; reflexivity|].
  cbn [report_of r_op r_inf r_details r_steps r_nonzeros forget s_op s_inf s_details s_steps]. destruct (s_op s); try (intros [= <-]; reflexivity).
  - destruct (s_details s) as [|[a q| |] ds]; try discriminate. intros [= <-]. reflexivity.
  - destruct (s_inf s) as [[[] states]|]; try discriminate; intros [= <-]; reflexivity.
  - destruct (s_details s) as [|[a q| |] ds]; try discriminate. intros [= <-]. reflexivity.
Qed.
Theorem C62_status :
  forall order next next' tab o g fuel st, o_prover o = Plain ->
  simulate_machine order next tab o g fuel = Some st ->
  simulate_no_steps tab g (o_max_configs o) (o_max_reps o) next' (o_max_loops o) (o_tape_limit o) fuel = Some (status_without_steps st).
Proof.
  intros order next next' tab o g fuel st Ho. unfold simulate_machine, simulate_no_steps. rewrite Ho.
  assert (X : forall Sym St (M : machine Sym St),
    match sim_loop M (log_and_apply M (o_max_configs o) (o_max_reps o)) fuel (o_max_loops o) (o_tape_limit o) (prover_init next, sim_init zops M) with
    | Some (_, s) => status_of M (o_tape_limit o) s | None => None end = Some st ->
    match nsim_loop M (nlog_and_apply M (o_max_configs o) (o_max_reps o)) fuel (o_max_loops o) (o_tape_limit o) (nprover_init next', nsim_init zops M) with
    | Some (_, s) => status_of M (o_tape_limit o) s | None => None end = Some (status_without_steps st)).
  { intros Sym St M. destruct (sim_loop _ _ _ _ _ _) as [a'|] eqn:E; [|discriminate].
    destruct (sloop_rel M _ _ fuel _ _ _ _ _ (init_rel M _ next next') E) as (b' & -> & _ & R). destruct a' as [p s], b' as [p' s']. cbn [snd] in R. subst s'.
    apply status_forget. }
  destruct g; apply X.
Qed.

(** a machine that halts after one step at least has a false number of steps in its record *)
Theorem C62_recorded_steps_refuted :
  forall n m tab g mc mr next ml tl fuel k score q a, wf_ttable n m tab ->
  simulate_no_steps tab g mc mr next ml tl fuel = Some (Halting k score q a) ->
  k = 0 /\ forall explicit tape, ~ halts_at (table_of tab) initial (Z.to_nat k) q a explicit tape.
Proof.
  intros n m tab g mc mr next ml tl fuel k sc q a W. unfold simulate_no_steps.
  assert (L : forall Sym St (M : machine Sym St) P lap fuel (ps ps' : P * sim Z Sym St),
    nsim_loop M lap fuel ml tl ps = Some ps' -> s_steps (snd ps') = s_steps (snd ps)).
  { intros Sym St M P lap f. induction f as [|f IH]; intros ps ps'; cbn [nsim_loop]; destruct (_ && _ && _); try discriminate; try (intros [= <-]; reflexivity).
    destruct (nsim_step zops M lap ps) as [ps1|] eqn:E; [|discriminate]. intros H. rewrite (IH _ _ H). exact (nstep_steps _ _ _ _ E). }
  assert (X : forall Sym St (M : machine Sym St),
    match nsim_loop M (nlog_and_apply M mc mr) fuel ml tl (nprover_init next, nsim_init zops M) with
    | Some (_, s) => status_of M tl s | None => None end = Some (Halting k sc q a) -> k = 0).
  { intros Sym St M. destruct (nsim_loop _ _ _ _ _ _) as [[p s]|] eqn:E; [|discriminate]. apply L in E. cbn [snd nsim_init s_steps] in E.
    unfold status_of. destruct (Nat.ltb _ _); [discriminate|]. cbn [report_of r_op r_inf r_details r_steps].
    destruct (s_op s); try discriminate; try (destruct (s_inf s) as [[? ?]|]; discriminate);
      destruct (s_details s) as [|[a' q'| |] ds]; try discriminate; intros [= <- _ _ _]; exact E. }
  intros E. assert (K : k = 0) by (destruct g; eapply X; exact E). split; [exact K|]. subst k.
  intros explicit tape (j & c & w & d & H & _). discriminate.
Qed.
(** 6 steps and 4 symbols for the busy beaver with 2 states; the record says 0 steps *)
Example C62_bb2 :
  run_prover bb2 SBase 1000 10 0 (Steps 100) <> None /\
  simulate_machine (fun _ l => l) 0 bb2 (Options false 0 false true 1 false false 100 100 0 0 0 Plain 1000 10 100 100) SBase 1000 = Some (Halting 6 4 1 1) /\
  simulate_no_steps bb2 SBase 1000 10 7 100 100 1000 = Some (Halting 0 4 1 1).
Proof. vm_compute. split; [discriminate|]. split; reflexivity. Qed.
(** [seek 2] ends with the machine running after counting 2 steps, but only at the halt without counting *)
Theorem C62_seek_refuted :
  exists tab, wf_ttable 2 2 tab /\
  option_map (fun r => (r_op r, r_loops r)) (run_prover tab SBase 1000 10 0 (Seek 2)) = Some (RUNNING, 2%nat) /\
  exists loops, (2 < loops)%nat /\
    option_map (fun r => (r_op r, r_loops r)) (with_machine tab SBase (fun _ _ M =>
      match nseek M (nlog_and_apply M 1000 10) 100 2 (nprover_init 0, nsim_init zops M) with
      | Some (_, s) => Some (report_of M s) | None => None end)) = Some (HALT, loops).
Proof. exists bb2. split; [exact bb2_wf|]. split; [vm_compute; reflexivity|]. exists 6%nat. split; [lia|]. vm_compute. reflexivity. Qed.

(** ** C63 *)

(** [Variable.num_vars] is a global counter: its value depends on all that was proved before in the process.  No simulation depends on it: from
    any two values the whole report is the same, with its steps, last visits and recurring states; an exception too would be the same. *)
Lemma drive_from {Sym St P} (M : machine Sym St) lap (g : P -> P) d p s :
  (forall p t q l, lap (g p) t q l = option_map (fun x => (g (fst x), snd x)) (lap p t q l)) ->
  drive M lap d (g p, s) = option_map (onp g) (drive M lap d (p, s)).
Proof. intros H. exact (drive_onp M lap g H d (p, s)). Qed.
Lemma sloop_from {Sym St P} (M : machine Sym St) lap (g : P -> P) fuel ml tl :
  (forall p t q l, lap (g p) t q l = option_map (fun x => (g (fst x), snd x)) (lap p t q l)) -> forall ps,
  sim_loop M lap fuel ml tl (onp g ps) = option_map (onp g) (sim_loop M lap fuel ml tl ps).
Proof.
  intros H. induction fuel as [|fuel IH]; intros ps; cbn [sim_loop onp snd]; destruct (_ && _ && _); try reflexivity.
  change (g (fst ps), snd ps) with (onp g ps). rewrite (step_onp M lap g H). destruct (sim_step zops M lap ps) as [ps'|]; [apply IH|reflexivity].
Qed.
Lemma sh_S a x : sh a (S x) = S (sh a x).
Proof. unfold sh. lia. Qed.
Lemma sh_0 a : sh a 0 = a.
Proof. unfold sh. lia. Qed.
Lemma plain_init {Sym St} a : prover_init (Sym:=Sym) (St:=St) a = rn_prover (sh a) (prover_init 0).
Proof. unfold rn_prover, prover_init. cbn [p_rules p_past p_next rn_rules map]. now rewrite sh_0. Qed.
Lemma lim_init {Sym St} a : lprover_init (Sym:=Sym) (St:=St) a = rn_lprover (sh a) (lprover_init 0).
Proof. unfold rn_lprover, lprover_init. cbn [lp_rules lp_past lp_next rn_lrules map]. now rewrite sh_0. Qed.
Lemma rec_init {Sym St} a : rprover_init (Sym:=Sym) (St:=St) a = rn_rprover (sh a) (rprover_init 0).
Proof. unfold rn_rprover, rprover_init. cbn [rp_rules rp_past rp_next rn_rules map]. now rewrite sh_0. Qed.

Theorem C63_counter_irrelevant :
  forall tab g mc mr next next' d, run_prover tab g mc mr next d = run_prover tab g mc mr next' d.
Proof.
  intros tab g mc mr next next' d.
  assert (X : forall a, run_prover tab g mc mr a d = run_prover tab g mc mr 0 d); [|now rewrite (X next), (X next')].
  intros a. unfold run_prover.
  assert (Y : forall Sym St (M : machine Sym St),
    match drive M (log_and_apply M mc mr) d (prover_init a, sim_init zops M) with Some (_, s) => Some (report_of M s) | None => None end =
    match drive M (log_and_apply M mc mr) d (prover_init 0, sim_init zops M) with Some (_, s) => Some (report_of M s) | None => None end).
  { intros Sym St M. rewrite plain_init, (drive_from M _ (rn_prover (sh a)) d _ _ (lap_rn (sh a) (sh_mono a) (sh_S a) M mc mr)).
    destruct (drive M (log_and_apply M mc mr) d (prover_init 0, sim_init zops M)) as [[p s]|]; reflexivity. }
  destruct g; apply Y.
Qed.
(** With [--limited-rules], provided that the order in which rules are tried depends on their positions only. *)
Definition natural_order (order : forall A, list A -> list A) : Prop := forall A B (g : A -> B) l, order B (map g l) = map g (order A l).
Theorem C63_limited :
  forall order tab g mc mr next next' d, natural_order order ->
  run_limited order tab g mc mr next d = run_limited order tab g mc mr next' d.
Proof.
  intros order tab g mc mr next next' d N.
  assert (X : forall a, run_limited order tab g mc mr a d = run_limited order tab g mc mr 0 d); [|now rewrite (X next), (X next')].
  intros a. unfold run_limited.
  assert (Y : forall Sym St (M : machine Sym St),
    match drive M (log_and_apply_lim M mc mr order) d (lprover_init a, sim_init zops M) with Some (_, s) => Some (report_of M s) | None => None end =
    match drive M (log_and_apply_lim M mc mr order) d (lprover_init 0, sim_init zops M) with Some (_, s) => Some (report_of M s) | None => None end).
  { intros Sym St M. rewrite lim_init, (drive_from M _ (rn_lprover (sh a)) d _ _ (lap_lim_rn (sh a) (sh_mono a) (sh_S a) M mc mr order N)).
    destruct (drive M (log_and_apply_lim M mc mr order) d (lprover_init 0, sim_init zops M)) as [[p s]|]; reflexivity. }
  destruct g; apply Y.
Qed.
(** With [--recursive]; also the rules are the same except for the names of their variables: as many, of the same kinds. *)
Definition kind_of (r : rrule) : bool * bool := (is_diff (rr_rule r), rr_meta r).
Theorem C63_recursive :
  forall tab g mc mr next next' d,
  option_map (fun x => (fst x, map kind_of (snd x))) (run_recursive tab g mc mr next d) =
  option_map (fun x => (fst x, map kind_of (snd x))) (run_recursive tab g mc mr next' d).
Proof.
  intros tab g mc mr next next' d. set (view := option_map _).
  assert (X : forall a, view (run_recursive tab g mc mr a d) = view (run_recursive tab g mc mr 0 d)); [|now rewrite (X next), (X next')].
  intros a. unfold run_recursive.
  assert (Y : forall Sym St (M : machine Sym St),
    view match drive M (log_and_apply_r M mc mr) d (rprover_init a, sim_init zops M) with Some (p, s) => Some (report_of M s, map snd (rp_rules p)) | None => None end =
    view match drive M (log_and_apply_r M mc mr) d (rprover_init 0, sim_init zops M) with Some (p, s) => Some (report_of M s, map snd (rp_rules p)) | None => None end).
  { intros Sym St M. rewrite rec_init, (drive_from M _ (rn_rprover (sh a)) d _ _ (lap_r_rn (sh a) (sh_mono a) (sh_S a) M mc mr)).
    destruct (drive M (log_and_apply_r M mc mr) d (rprover_init 0, sim_init zops M)) as [[p s]|]; [|reflexivity].
    unfold view. cbn [option_map onp fst snd]. f_equal. f_equal. cbn [rn_rprover rp_rules]. unfold rn_rules. rewrite !map_map. cbn [snd].
    apply map_ext. intros [k [[? ? ? ?|? ? ? ? ? ?] b]]; reflexivity. }
  destruct g; apply Y.
Qed.

(** The status that Enumerate and Macro_Simulator write for a machine does not depend on what was decided before in the same process. *)
Lemma simulate_counter order next next' tab o g fuel : (o_prover o = Limited -> natural_order order) ->
  simulate_machine order next tab o g fuel = simulate_machine order next' tab o g fuel.
Proof.
  intros N.
  assert (X : forall a, simulate_machine order a tab o g fuel = simulate_machine order 0 tab o g fuel); [|now rewrite (X next), (X next')].
  intros a. unfold simulate_machine.
  assert (Y : forall Sym St (M : machine Sym St) P lap (g : P -> P) p,
    (forall p t q l, lap (g p) t q l = option_map (fun x => (g (fst x), snd x)) (lap p t q l)) ->
    match sim_loop M lap fuel (o_max_loops o) (o_tape_limit o) (g p, sim_init zops M) with Some (_, s) => status_of M (o_tape_limit o) s | None => None end =
    match sim_loop M lap fuel (o_max_loops o) (o_tape_limit o) (p, sim_init zops M) with Some (_, s) => status_of M (o_tape_limit o) s | None => None end).
  { intros Sym St M P lap g0 p H. pose proof (sloop_from M lap g0 fuel (o_max_loops o) (o_tape_limit o) H (p, sim_init zops M)) as E.
    unfold onp at 1 in E. cbn [fst snd] in E. rewrite E. clear E.
    destruct (sim_loop M lap fuel (o_max_loops o) (o_tape_limit o) (p, sim_init zops M)) as [[p' s]|]; reflexivity. }
  destruct (o_prover o) eqn:Ho; [destruct g; reflexivity| | |].
  - destruct g; cbn [with_machine]; rewrite plain_init; apply Y; exact (lap_rn (sh a) (sh_mono a) (sh_S a) _ _ _).
  - destruct g; cbn [with_machine]; rewrite lim_init; apply Y; exact (lap_lim_rn (sh a) (sh_mono a) (sh_S a) _ _ _ _ (N eq_refl)).
  - destruct g; cbn [with_machine]; rewrite rec_init; apply Y; exact (lap_r_rn (sh a) (sh_mono a) (sh_S a) _ _ _).
Qed.
Theorem C63_status :
  forall faster order next next' n m tab o fuel, (o_prover o = Limited -> natural_order order) ->
  run_options faster order next tab n m o fuel = run_options faster order next' tab n m o fuel.
Proof.
  intros faster order next next' n m tab o fuel N. unfold run_options.
  assert (E : find_and_simulate faster order next tab o fuel = find_and_simulate faster order next' tab o fuel).
  { unfold find_and_simulate. cbv zeta. match goal with |- match ?b with _ => _ end = _ => destruct b as [k|] end; [|reflexivity].
    now rewrite (simulate_counter order next next'). }
  now rewrite E.
Qed.
(** a machine for which rules are proven and applied; the ways to order rules that come to mind are natural *)
Example C63_bouncer :
  option_map r_op (run_prover bouncer3 SBase 100 10 0 (LoopSeek 60)) = Some INF_REPEAT /\
  option_map reason_of (run_prover bouncer3 SBase 100 10 0 (LoopSeek 60)) = Some (Some INF_PROOF_SYSTEM) /\
  run_recursive bouncer3 SBase 100 10 12 (LoopSeek 60) <> None /\
  option_map snd (run_recursive bouncer3 SBase 100 10 12 (LoopSeek 60)) <> option_map snd (run_recursive bouncer3 SBase 100 10 0 (LoopSeek 60)) /\
  natural_order (fun _ l => l) /\ natural_order (@rev).
Proof.
  split; [vm_compute; reflexivity|]. split; [vm_compute; reflexivity|]. split; [vm_compute; discriminate|]. split; [vm_compute; discriminate|].
  split; intros A B g l; [reflexivity|]. symmetry. apply map_rev.
Qed.

Print Assumptions C62_same_run.
Print Assumptions C62_verdicts_true.
Print Assumptions C62_seek_ends.
Print Assumptions C62_status.
Print Assumptions C62_recorded_steps_refuted.
Print Assumptions C62_seek_refuted.
Print Assumptions C63_counter_irrelevant.
Print Assumptions C63_limited.
Print Assumptions C63_recursive.
Print Assumptions C63_status.
