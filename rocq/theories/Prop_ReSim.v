(** * Property C68: simulating the machines of a record file again *)
Require Import ZArith List Lia Bool Arith.
From Verif Require Import Spec_TM M_Turing_Machine M_Direct M_Tape M_Simulator M_Settings M_Prover M_ProverRun M_ProverLim M_ProverRec
  M_LinRecur M_CTL M_Pipeline M_ReSim
  P_Stream P_Macro P_Simulator P_Settings P_ProverRun P_RecRun P_NoSteps P_Shift P_Pipeline
  P_Quint Prop_Macro Prop_Prover Prop_ProverRec Prop_Pipeline Prop_NoSteps.
Import ListNotations.
Open Scope nat_scope.

(** The record written by the pipeline (C55): its status is that of [simulate_machine]. *)
Lemma stored_status order next tab o g k back fuel :
  option_map sd_status (simulate_stored order next tab o g k back fuel) = simulate_machine order next tab o g fuel.
Proof.
  unfold simulate_stored, simulate_machine.
  assert (X : forall Sym St (M : machine Sym St) P lap (c : P -> nat) p,
    option_map sd_status (match sim_loop M lap fuel (o_max_loops o) (o_tape_limit o) (p, sim_init zops M) with
      | Some (p, s) => option_map (Stored (SimParams k back (o_max_loops o) (o_tape_limit o)) (c p)) (status_of M (o_tape_limit o) s)
      | None => None end) =
    match sim_loop M lap fuel (o_max_loops o) (o_tape_limit o) (p, sim_init zops M) with
      | Some (_, s) => status_of M (o_tape_limit o) s | None => None end).
  { intros Sym St M P lap c p. destruct (sim_loop _ _ _ _ _ _) as [[p' s]|]; [|reflexivity]. destruct (status_of _ _ s); reflexivity. }
  destruct g; cbn [with_machine]; destruct (o_prover o); try reflexivity; apply X.
Qed.
Lemma linear_rn {Sym St} f (mono : forall x y, x < y -> f x < f y) (p : rprover Sym St) : num_linear (rn_rprover f p) = num_linear p.
Proof.
  unfold num_linear. cbn [rn_rprover rp_rules]. induction (rp_rules p) as [|[k r] l IH]; [reflexivity|]. cbn [rn_rules map filter snd fst].
  assert (E : is_linear (rn_rrule f r) = is_linear r).
  { destruct r as [[i d n sn|vars mins result inf n sn] b]; [reflexivity|]. unfold is_linear. cbn [rn_rrule rr_rule rn_frule].
    rewrite (P_Rename.combine_map2), P_Rename.forallb_map. apply (forallb_pair f). apply (P_Rename.linear_shape_rn f mono). }
  unfold rn_rules in IH. rewrite E. destruct (is_linear r); cbn [length]; now rewrite IH.
Qed.
(** like C63, with the number of linear rules *)
Lemma stored_counter order order' next next' tab o g k back fuel : o_prover o = Recursive ->
  simulate_stored order next tab o g k back fuel = simulate_stored order' next' tab o g k back fuel.
Proof.
  intros Ho.
  assert (X : forall a order, simulate_stored order a tab o g k back fuel = simulate_stored order' 0 tab o g k back fuel); [|now rewrite (X next), (X next' order')].
  intros a ord. unfold simulate_stored. rewrite Ho.
  assert (Y : forall Sym St (M : machine Sym St),
    match sim_loop M (log_and_apply_r M (o_max_configs o) (o_max_reps o)) fuel (o_max_loops o) (o_tape_limit o) (rprover_init a, sim_init zops M) with
    | Some (p, s) => option_map (Stored (SimParams k back (o_max_loops o) (o_tape_limit o)) (num_linear p)) (status_of M (o_tape_limit o) s)
    | None => None end =
    match sim_loop M (log_and_apply_r M (o_max_configs o) (o_max_reps o)) fuel (o_max_loops o) (o_tape_limit o) (rprover_init 0, sim_init zops M) with
    | Some (p, s) => option_map (Stored (SimParams k back (o_max_loops o) (o_tape_limit o)) (num_linear p)) (status_of M (o_tape_limit o) s)
    | None => None end).
  { intros Sym St M. rewrite rec_init.
    pose proof (sloop_from M _ (rn_rprover (sh a)) fuel (o_max_loops o) (o_tape_limit o) (lap_r_rn (sh a) (sh_mono a) (sh_S a) M (o_max_configs o) (o_max_reps o))
      (rprover_init 0, sim_init zops M)) as E.
    unfold onp at 1 in E. cbn [fst snd] in E. rewrite E. clear E.
    destruct (sim_loop M (log_and_apply_r M (o_max_configs o) (o_max_reps o)) fuel (o_max_loops o) (o_tape_limit o) (rprover_init 0, sim_init zops M)) as [[p s]|];
      [|reflexivity]. cbn [option_map onp fst snd]. now rewrite linear_rn by apply sh_mono. }
  destruct g; apply Y.
Qed.

(** ** What re-simulation keeps *)

(** the options that the record does not hold have their defaults *)
Definition usual (o : options) : Prop :=
  o_prover o = Recursive /\ o_max_configs o = Z.to_nat 100000 /\ o_max_reps o = 10 /\ o_block_limit o = Z.to_nat 10000 /\ o_back_limit o = Z.to_nat 1000.

Lemma stored_same order next tab o o' g k back fuel :
  o_prover o' = o_prover o -> o_max_configs o' = o_max_configs o -> o_max_reps o' = o_max_reps o ->
  o_max_loops o' = o_max_loops o -> o_tape_limit o' = o_tape_limit o ->
  simulate_stored order next tab o' g k back fuel = simulate_stored order next tab o g k back fuel.
Proof. intros E1 E2 E3 E4 E5. unfold simulate_stored. now rewrite E1, E2, E3, E4, E5. Qed.
Lemma resim_stack p o : o_block_limit o = o_block_limit (resim_options p) -> o_back_limit o = o_back_limit (resim_options p) -> 0 < sp_block p ->
  resim_setting p (resim_options p) = stack o (sp_block p) (sp_back p).
Proof.
  intros E1 E2 K. unfold resim_setting, stack, ctl_setting. rewrite E1, E2. destruct (Nat.ltb_spec 1 (sp_block p)) as [H|H].
  - destruct (Nat.eqb_spec (sp_block p) 1) as [E|_]; [lia|]. destruct (sp_back p); reflexivity.
  - assert (E : sp_block p = 1) by lia. rewrite E. cbn [Nat.eqb]. destruct (sp_back p); reflexivity.
Qed.
Lemma stored_params order next tab o g k back fuel r :
  simulate_stored order next tab o g k back fuel = Some r -> sd_params r = SimParams k back (o_max_loops o) (o_tape_limit o).
Proof.
  unfold simulate_stored.
  assert (X : forall Sym St (M : machine Sym St) P lap (c : P -> nat) p,
    match sim_loop M lap fuel (o_max_loops o) (o_tape_limit o) (p, sim_init zops M) with
      | Some (p, s) => option_map (Stored (SimParams k back (o_max_loops o) (o_tape_limit o)) (c p)) (status_of M (o_tape_limit o) s)
      | None => None end = Some r -> sd_params r = SimParams k back (o_max_loops o) (o_tape_limit o)).
  { intros Sym St M P lap c p. destruct (sim_loop _ _ _ _ _ _) as [[p' s]|]; [|discriminate]. destruct (status_of _ _ s); [|discriminate]. intros [= <-]. reflexivity. }
  destruct g; cbn [with_machine]; destruct (o_prover o); try discriminate; apply X.
Qed.

(** A record written by a simulation with recursive rules, block size [k] and the usual limits comes out of Re_Sim.py as it went in: the same
    status, with the same steps and the same last visits, provided that no linear rule was proven.  This is so for any state of the two
    processes. *)
Theorem C68_same_record :
  forall order order' next next' linear_sim tab o k fuel r, usual o -> 0 < k ->
  simulate_stored order next tab o (stack o k (o_backsymbol o)) k (o_backsymbol o) fuel = Some r -> sd_linear r = 0 ->
  re_sim order' next' linear_sim tab r fuel = Some r.
Proof.
  intros order order' next next' ls tab o k fuel r (U1 & U2 & U3 & U4 & U5) K E Hl. pose proof (stored_params _ _ _ _ _ _ _ _ _ E) as P.
  unfold re_sim. rewrite Hl. cbn [Nat.ltb Nat.leb]. cbv zeta.
  rewrite (resim_stack _ o) by (rewrite P; cbn [resim_options o_block_limit o_back_limit sp_block]; auto).
  rewrite P. cbn [sp_block sp_back].
  rewrite (stored_same order' next' tab o) by (cbn [resim_options o_prover o_max_configs o_max_reps o_max_loops o_tape_limit sp_loops sp_tape]; auto).
  rewrite (stored_counter order' order next' next) by exact U1. exact E.
Qed.
(** Doing it once more changes nothing, under the same proviso. *)
Theorem C68_again :
  forall order order' next next' ls ls' tab r r' fuel, sd_linear r = 0 -> sd_linear r' = 0 ->
  re_sim order next ls tab r fuel = Some r' -> re_sim order' next' ls' tab r' fuel = Some r'.
Proof.
  intros order order' next next' ls ls' tab r r' fuel H H' E. unfold re_sim in *. rewrite H in E. rewrite H'. cbn [Nat.ltb Nat.leb] in *. cbv zeta in *.
  pose proof (stored_params _ _ _ _ _ _ _ _ _ E) as P. cbn [resim_options o_max_loops o_tape_limit] in P.
  assert (Q : sd_params r' = sd_params r) by (rewrite P; destruct (sd_params r); reflexivity).
  rewrite Q, (stored_counter order' order next' next) by reflexivity. exact E.
Qed.

(** ** What the new status means *)

(** [resim_trusted]: only rules whose minima are right are proven (C52, C55) *)
Definition resim_trusted (next : nat) (tab : ttable) (r : stored) : Prop := prover_trusted next tab (resim_options (sd_params r)).
Lemma resim_valid p : valid_setting (resim_setting p (resim_options p)) = true.
Proof.
  unfold resim_setting. destruct (Nat.ltb_spec 1 (sp_block p)) as [H|H].
  - assert (E : (0 <? sp_block p) && (0 <? sp_block p) = true) by (rewrite andb_diag; apply Nat.ltb_lt; lia). destruct (sp_back p); exact E.
  - destruct (sp_back p); reflexivity.
Qed.
Theorem C68_status_true_partial :
  forall order next ls n m tab r r' fuel, (forall A l, incl (order A l) l) -> wf_ttable n m tab -> resim_trusted next tab r -> sd_linear r = 0 ->
  re_sim order next ls tab r fuel = Some r' ->
  status_true (repeat_trusted n m (resim_setting (sd_params r) (resim_options (sd_params r)))) (table_of tab) (sd_status r').
Proof.
  intros order next ls n m tab r r' fuel Ho W T Hl. unfold re_sim. rewrite Hl. cbn [Nat.ltb Nat.leb]. cbv zeta. intros E.
  pose proof (stored_status order next tab (resim_options (sd_params r)) (resim_setting (sd_params r) (resim_options (sd_params r)))
    (sp_block (sd_params r)) (sp_back (sd_params r)) fuel) as S. rewrite E in S. cbn [option_map] in S.
  eapply simulate_true; [exact Ho|exact W|apply resim_valid|exact T|exact (fun x => x)|symmetry; exact S].
Qed.

(** ** What is lost *)

(** A record whose status was not found by the simulator - by Lin_Recur_Detect, CTL, Reverse_Engineer, CPS or backtracking - has no
    parameters of a simulation.  Re_Sim.py always makes it unknown, for every machine and whatever the status was. *)
Theorem C68_verdict_erased_refuted :
  forall order next ls tab st fuel, re_sim order next ls tab (never_simulated st) fuel = Some (never_simulated Unknown).
Proof.
  intros order next ls tab st fuel. unfold re_sim. cbn [never_simulated sd_linear sd_params Nat.ltb Nat.leb sp_block sp_back]. cbv zeta. unfold resim_setting.
  cbn [sp_block sp_back Nat.ltb Nat.leb]. unfold simulate_stored. cbn [with_machine resim_options o_prover o_max_loops o_tape_limit o_max_configs o_max_reps sp_loops sp_tape].
  destruct fuel as [|fuel]; reflexivity.
Qed.
(** the pipeline leaves such a record: this bouncer is proved infinite by CTL *)
Example C68_erased_example : exists st,
  run_options twice (fun _ l => l) 0 bouncer 2 2 (but false 0 0 true true 1000 Plain) (Z.to_nat 20000) = Some st /\ st <> Unknown /\
  forall order next ls fuel, option_map sd_status (re_sim order next ls bouncer (never_simulated st) fuel) = Some Unknown.
Proof.
  exists (Infinite FromCTL QUndecided). split; [exact pipeline_ctl|]. split; [discriminate|]. intros. now rewrite C68_verdict_erased_refuted.
Qed.

(** A true status found with the default prover is replaced by a false one: Re_Sim.py always turns on recursive rules. *)
Theorem C68_true_to_false_refuted :
  wf_ttable 38 8 meta_bad /\
  let o := but false 0 1 false false 1000 Plain in
  exists r r' source b,
    simulate_stored (fun _ l => l) 0 meta_bad o (stack o 1 false) 1 false (Z.to_nat 2000) = Some r /\
    sd_status r = Halting 45525 13 21 2 /\ 
    (forall ls, re_sim (fun _ l => l) 0 ls meta_bad r (Z.to_nat 2000) = Some r') /\ sd_status r' = Infinite source b /\
    exists tape, halts_at (table_of meta_bad) initial (Z.to_nat 45525) 21 2 true tape.
Proof.
  split; [exact meta_bad_wf|]. cbv zeta.
  exists (Stored (SimParams 1 false 1000 50) 0 (Halting 45525 13 21 2)).
  exists (Stored (SimParams 1 false 1000 50) 1 (Infinite (FromSim INF_CHAIN_STEP) (QHalt 45580 (SRun 28)))).
  exists (FromSim INF_CHAIN_STEP), (QHalt 45580 (SRun 28)).
  split; [vm_compute; reflexivity|]. split; [reflexivity|]. split; [intros ls; vm_compute; reflexivity|]. split; [reflexivity|].
  exact (proj2 (proj2 C52_infinite_verdict_refuted)).
Qed.

(** A record with a linear rule is simulated without counting steps; a halting status then says 0 steps, which is never true. *)
Theorem C68_steps_lost_refuted :
  forall order next ls n m tab r r' fuel, wf_ttable n m tab -> 0 < sd_linear r ->
  re_sim order next ls tab r fuel = Some r' ->
  match sd_status r' with
  | Halting k _ q a => k = 0%Z /\ forall explicit tape, ~ halts_at (table_of tab) initial (Z.to_nat k) q a explicit tape
  | Infinite _ b => b = QUndecided
  | Unknown => True
  end.
Proof.
  intros order next ls n m tab r r' fuel W H. unfold re_sim. assert (E : (0 <? sd_linear r) = true) by (apply Nat.ltb_lt; exact H). rewrite E. cbv zeta.
  destruct (ls _ _ _ _) as [[l st]|]; [|discriminate]. intros [= <-]. cbn [sd_status fst snd]. destruct st as [|k sc q a|src b]; cbn [without_steps]; auto.
  split; [reflexivity|]. intros explicit tape (j & c & w & d & Hh & _). discriminate.
Qed.
(** A machine that builds 3^8 and then doubles a block of 1s for each 3: the first re-simulation writes the number of its steps and one linear
    rule; hence the second one loses the number. *)
Definition dbl_rows : list quint :=
  let q a b c d e := Quint a b (Some c) d (SRun e) in
  map (fun i => q i 0 3 L (S i)) (seq 0 8) ++
  [q 8 2 1 L 8; q 8 0 0 R 9; q 9 3 1 L 8; q 9 1 2 L 10; q 9 2 2 R 9; Quint 9 0 (Some 1) R SHalt; q 10 2 2 L 10; q 10 0 2 R 9].
Definition dbl : ttable := match tm_from_quintuples dbl_rows 11 4 with Some t => t | None => [] end.
Lemma dbl_wf : wf_ttable 11 4 dbl.
Proof. apply (quintuples_wf dbl_rows); [lia|lia|vm_compute; reflexivity]. Qed.
Example C68_steps_lost_example :
  let r := Stored (SimParams 1 false 1000 50) 0 Unknown in
  exists r', (forall ls, re_sim (fun _ l => l) 0 ls dbl r (Z.to_nat 2000) = Some r') /\ sd_status r' = Halting 173758 511 9 0 /\
  (exists explicit tape, halts_at (table_of dbl) initial (Z.to_nat 173758) 9 0 explicit tape) /\ 0 < sd_linear r'.
Proof.
  cbv zeta. exists (Stored (SimParams 1 false 1000 50) 1 (Halting 173758 511 9 0)).
  split; [intros ls; vm_compute; reflexivity|]. split; [reflexivity|]. split; [|cbn; lia].
  assert (PT : prover_trusted 0 dbl (but false 0 1 false false 1000 Plain)). { split; [intros _; cbn; lia|discriminate]. }
  assert (E : simulate_machine (fun _ l => l) 0 dbl (but false 0 1 false false 1000 Plain) SBase (Z.to_nat 2000) = Some (Halting 173758 511 9 0)) by (vm_compute; reflexivity).
  destruct (halting_true False _ _ _ _ _ (simulate_true _ _ 11 4 _ _ SBase _ _ False (fun _ l => incl_refl l) dbl_wf eq_refl PT (fun f => match f with end) E)) as (e & t & Hh & _). eauto.
Qed.
(** a record for which C68_same_record and C68_again hold *)
Example C68_example :
  let o := but false 0 1 false false 1000 Recursive in
  exists r, usual o /\ simulate_stored (fun _ l => l) 0 nest o (stack o 1 false) 1 false (Z.to_nat 2000) = Some r /\
  sd_linear r = 0 /\ sd_status r = Halting 480 16 17 0 /\ forall order next ls, re_sim order next ls nest r (Z.to_nat 2000) = Some r.
Proof.
  cbv zeta. set (o := but false 0 1 false false 1000 Recursive).
  assert (E : simulate_stored (fun _ l => l) 0 nest o (stack o 1 false) 1 false (Z.to_nat 2000) = Some (Stored (SimParams 1 false 1000 50) 0 (Halting 480 16 17 0)))
    by (vm_compute; reflexivity).
  assert (U : usual o) by (unfold usual; auto 6).
  eexists. split; [exact U|]. split; [exact E|]. split; [reflexivity|]. split; [reflexivity|].
  intros order next ls. apply (C68_same_record (fun _ l => l) order 0 next ls nest o 1); auto.
Qed.

Print Assumptions C68_same_record.
Print Assumptions C68_again.
Print Assumptions C68_status_true_partial.
Print Assumptions C68_verdict_erased_refuted.
Print Assumptions C68_true_to_false_refuted.
Print Assumptions C68_steps_lost_refuted.
