(** * Lemmas about the pipeline of filters and simulation *)
Require Import ZArith List Lia Bool Arith.
From Verif Require Import Spec_TM M_Turing_Machine M_Direct M_Tape M_Simulator M_Settings M_Prover M_ProverRun
  M_ProverLim M_ProverRec M_LinRecur M_CTL M_Filters M_Pipeline
  P_Stream P_SimLimited P_Macro P_Simulator P_Settings P_ProverRun P_LimRun P_RecRun P_RecApply.
Import ListNotations.
Open Scope nat_scope.

(** ** the loop of simulate_machine is a number of steps *)
Lemma sim_loop_iter {Sym St P} (M : machine Sym St)
  (lap : P -> ctape Z Sym -> St -> nat -> option (P * prover_result Z Sym)) ml tl fuel : forall ps ps',
  sim_loop M lap fuel ml tl ps = Some ps' -> exists k, sim_iter zops M lap k ps = Some ps'.
Proof.
  induction fuel as [|fuel IH]; intros ps ps'; cbn [sim_loop]; destruct (_ && _); try discriminate;
    try (intros E; injection E as <-; exists 0; reflexivity).
  destruct (sim_step zops M lap ps) as [ps1|] eqn:E1; [|discriminate]. intros E.
  destruct (IH _ _ E) as (k & Ek). exists (S k). cbn [sim_iter]. now rewrite E1.
Qed.

(** the status in terms of the report *)
Definition status_from (r : report) (st : status) : Prop :=
  st = Unknown \/
  (r_op r = INF_REPEAT /\ exists reason states, r_inf r = Some (reason, states) /\
     st = Infinite (FromSim reason) (report_quasi r)) \/
  ((r_op r = HALT \/ r_op r = UNDEFINED) /\ exists a q ds, r_details r = DCell a q :: ds /\
     st = Halting (r_steps r) (r_nonzeros r) q a).
Lemma status_of_from {Sym St} (M : machine Sym St) tl s st :
  status_of M tl s = Some st -> status_from (report_of M s) st.
Proof.
  unfold status_of, status_from. destruct (tl <? _); [intros E; left; congruence|].
  destruct (r_op (report_of M s)) eqn:Eo; try (intros E; left; congruence).
  - destruct (r_details _) as [|[a q| |] ds] eqn:Ed; try discriminate. intros E. injection E as <-. right; right. eauto 8.
  - destruct (r_inf _) as [[reason states]|] eqn:Ei; [|discriminate]. intros E. injection E as <-. right; left. eauto 8.
  - destruct (r_details _) as [|[a q| |] ds] eqn:Ed; try discriminate. intros E. injection E as <-. right; right. eauto 8.
Qed.

Definition some_run (order : forall A, list A -> list A) (next : nat) (tab : ttable) (o : options) (g : setting) (r : report) : Prop :=
  exists k,
    match o_prover o with
    | NoProver => False
    | Plain => run_prover tab g (o_max_configs o) (o_max_reps o) next (Steps k) = Some r
    | Limited => run_limited order tab g (o_max_configs o) (o_max_reps o) next (Steps k) = Some r
    | Recursive => exists rules, run_recursive tab g (o_max_configs o) (o_max_reps o) next (Steps k) = Some (r, rules)
    end.
Lemma simulate_from order next tab o g fuel st :
  simulate_machine order next tab o g fuel = Some st ->
  exists r, some_run order next tab o g r /\ status_from r st.
Proof.
  assert (X : forall Sym St (M : machine Sym St) P lap (p : P),
    match sim_loop M lap fuel (o_max_loops o) (o_tape_limit o) (p, sim_init zops M) with
    | Some (_, s) => status_of M (o_tape_limit o) s | None => None end = Some st ->
    exists k p' s, drive M lap (Steps k) (p, sim_init zops M) = Some (p', s) /\ status_from (report_of M s) st).
  { intros Sym St M P lap p. destruct (sim_loop _ _ _ _ _ _) as [[p' s]|] eqn:E; [|discriminate]. intros Es.
    destruct (sim_loop_iter _ _ _ _ _ _ _ E) as (k & Ek). exists k, p', s. split; [exact Ek|]. now apply status_of_from in Es. }
  unfold simulate_machine, some_run, run_prover, run_limited, run_recursive.
  destruct (o_prover o) eqn:Eo; [destruct g; discriminate| | |];
    (destruct g; cbn [with_machine]; intros E;
     destruct (X _ _ _ _ _ _ E) as (kk & p' & s & Ed & Es);
     (eexists; split; [exists kk; rewrite Ed; eauto|exact Es])).
Qed.

(** ** the block size that is chosen *)
Lemma best_size_bound {Sym} (eqb : Sym -> Sym -> bool) tape max sizes : forall mc opt,
  0 < opt -> (forall k, In k sizes -> 0 < k) -> at_most max opt = true ->
  0 < best_size eqb tape max sizes mc opt /\ at_most max (best_size eqb tape max sizes mc opt) = true.
Proof.
  induction sizes as [|k sizes IH]; intros mc opt H0 H1 H2; cbn [best_size]; [auto|].
  assert (forall k, In k sizes -> 0 < k) by (intros; apply H1; now right).
  destruct (_ <? _)%Z; [|now apply IH]. destruct (at_most max k) eqn:E; [|auto]. apply IH; auto. apply H1. now left.
Qed.
Lemma compression_bound {Sym St} (M : machine Sym St) loops max k :
  compression_search M loops max = Some (Some k) -> 0 < k /\ at_most max k = true.
Proof.
  assert (A1 : at_most max 1 = true).
  { unfold at_most. destruct max; [reflexivity|]. cbn. now destruct max. }
  unfold compression_search. destruct (loops =? 0); [intros E; injection E as <-; auto|].
  destruct (worst_loop _ _ _ _ _) as [[[ml w]|]|]; try discriminate.
  destruct (loop_seek _ _ _ _ _) as [[u s]|]; [|discriminate]. destruct (_ =? _); [|discriminate].
  destruct (uncompress_tape _) as [tape|]; [|discriminate]. intros E. injection E as <-.
  apply best_size_bound; auto. intros k Hk. apply in_seq in Hk. lia.
Qed.
Lemma mult_loop_bound faster tab bl kl loops opt mbm max fuel : forall best om mult k,
  0 < opt -> 0 < om -> 0 < mult -> at_most max (om * opt) = true ->
  mult_loop faster tab bl kl fuel loops opt mbm max best om mult = Some k -> 0 < k /\ at_most max k = true.
Proof.
  induction fuel as [|fuel IH]; intros best om mult k H0 H1 H2 H3; cbn [mult_loop];
    destruct ((mult <=? om + mbm) && at_most max (mult * opt)) eqn:E; try discriminate;
    try (intros Q; injection Q as <-; split; [now apply Nat.mul_pos_pos|assumption]).
  apply andb_true_iff in E as [_ E].
  destruct (chain_factor _ _ _ _ _) as [[f|]|]; try discriminate.
  - destruct (faster f best); apply IH; auto; lia.
  - intros Q; injection Q as <-; split; [now apply Nat.mul_pos_pos|assumption].
Qed.
Lemma block_finder_pos faster tab bl kl fuel loops bm mbm max k :
  block_finder faster tab bl kl fuel loops bm mbm max = Some k -> 0 < k /\ (bm = 0 -> at_most max k = true).
Proof.
  unfold block_finder. destruct (compression_search _ _ _) as [[opt|]|] eqn:Ec; try discriminate.
  - apply compression_bound in Ec as [C1 C2]. destruct (Nat.eqb_spec bm 0) as [->|Hb]; cbn [negb].
    + destruct (loops =? 0); [intros E; injection E as <-; auto|]. intros E.
      apply mult_loop_bound in E; auto; [tauto|]. now rewrite Nat.mul_1_l.
    + intros E. injection E as <-. split; [apply Nat.mul_pos_pos; lia|]. intros ->. lia.
  - intros E. injection E as <-. split; [lia|]. intros _. unfold at_most. destruct max; [reflexivity|]. cbn. now destruct max.
Qed.
