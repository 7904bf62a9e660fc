(** * Property C52: the rule prover with --recursive *)
Require Import ZArith List Lia Bool Arith QArith Qround.
From Verif Require Import Spec_TM M_Turing_Machine P_SimLimited P_Quint M_Expr M_Tape M_Simulator M_Settings
     M_Prover M_ProverRec P_Macro P_Simulator P_Settings P_RecRun Prop_Simulator.
Import ListNotations.
Open Scope Z_scope.

(** A machine that halts and for which the recursive prover answers INFINITE.
    Tapes 4^x 6 1 (state) 1 2^d 7^e: the machine makes 4^(2x+1) of 4^x while d decreases,
    by passes that need at least four 1s ahead of the head.  The prover proves one pass as
    a Diff_Rule with minimum 4, then the whole cycle as a Linear_Rule that uses it; the
    minimum recorded for x is 1 because line 874 only looks at the counts between loops.
    Later the machine comes back with x = 2, where a pass meets a 2 and halts; the rule is
    applied with "-1 passes" and its step count is negative. *)
Definition meta_rows : list quint :=
  let q a b c d e := Quint a b (Some c) d (SRun e) in
  [q 0 0 7 L 1; q 1 0 7 L 2; q 2 0 2 L 3; q 3 0 2 L 4; q 4 0 2 L 5; q 5 0 2 L 6; q 6 0 2 L 7; q 7 0 1 L 8;
   q 8 0 1 L 9; q 9 0 1 L 10; q 10 0 1 L 11; q 11 0 1 L 12; q 12 0 1 L 13; q 13 0 1 L 14; q 14 0 4 L 25;
   q 14 1 1 L 14; q 14 4 1 L 14; q 14 6 1 L 14; q 15 1 4 R 16; q 15 4 4 R 15; q 16 1 4 R 17; q 17 1 4 R 18;
   q 18 1 4 R 19; q 19 1 6 R 20; q 19 4 4 R 19; q 19 6 6 R 20; q 20 1 1 R 21; Quint 20 2 (Some 1) R SHalt;
   q 21 1 1 R 22; Quint 21 2 (Some 1) R SHalt; q 22 1 1 L 23; q 22 2 1 L 14; q 22 7 7 R 27; q 23 1 1 L 23;
   q 23 6 4 L 24; q 24 0 4 R 19; q 24 4 4 L 24; q 25 0 4 L 26; q 26 0 4 R 15; q 27 7 7 R 28; q 28 0 7 L 29;
   q 28 7 7 R 30; q 29 1 2 L 29; q 29 6 0 L 31; q 29 7 7 L 29; q 30 0 0 R 30; q 31 0 0 R 32; q 31 4 0 L 31;
   q 32 0 0 R 32; q 32 2 2 L 33; q 33 0 1 L 34; q 34 0 1 L 35; q 35 0 6 L 36; q 36 0 4 L 37;
   q 37 0 4 R 19]%nat.
Definition meta_bad : ttable := match tm_from_quintuples meta_rows 38 8 with Some t => t | None => [] end.
Lemma meta_bad_wf : wf_ttable 38 8 meta_bad.
Proof. apply (quintuples_wf meta_rows); [lia|lia|vm_compute; reflexivity]. Qed.

Theorem C52_infinite_verdict_refuted :
  wf_ttable 38 8 meta_bad /\
  (exists r rules, run_recursive meta_bad SBase (Z.to_nat 100000) 10 0 (LoopSeek 1000) = Some (r, rules) /\
                   r_op r = INF_REPEAT /\ has_meta_general rules = true) /\
  exists tape, halts_at (table_of meta_bad) initial (Z.to_nat 45525) 21 2 true tape.
Proof.
  split; [exact meta_bad_wf|]. split.
  - do 2 eexists. split; [vm_compute; reflexivity|]. split; reflexivity.
  - destruct (C11_halting_exact 38 8 meta_bad SBase (LoopSeek 3000) meta_bad_wf eq_refl) as (r & E & H).
    vm_compute in E. injection E as <-.
    destruct (H (or_introl eq_refl)) as (a & q & rest & tape & D & _ & _ & Hh & _).
    injection D as <- <- <-. exists tape. exact Hh.
Qed.

(** The step count can go down when such a rule is applied, although every transition
    of the machine adds a step: after 145 loops it is smaller than after 144. *)
Theorem C52_step_count_refuted :
  exists r rules r' rules',
    run_recursive meta_bad SBase (Z.to_nat 100000) 10 0 (Steps 144) = Some (r, rules) /\
    run_recursive meta_bad SBase (Z.to_nat 100000) 10 0 (Steps 145) = Some (r', rules') /\
    r_steps r' < r_steps r.
Proof.
  do 4 eexists. split; [vm_compute; reflexivity|]. split; [vm_compute; reflexivity|]. reflexivity.
Qed.

(** ** What does hold

    Which rules a run recorded can be read off its prover.  A rule proven without other
    rules is always trusted.  A rule proven with other rules (line 950) is trusted if it is
    a Diff_Rule whose step count is a polynomial of degree at most 2 with integer
    coefficients: the machine above records a general rule, and series_sum, which adds
    up step counts, is wrong for other polynomials (C19_cubic_refuted,
    C19_fractions_refuted).  Missing from the full claim: runs that record an
    untrusted rule, for which it is refuted above; and that no run raises. *)
Theorem C52_halting_exact_partial :
  forall n m tab g mc mr next d r rules, wf_ttable n m tab -> valid_setting g = true ->
  run_recursive tab g mc mr next d = Some (r, rules) -> forallb trusted_rule rules = true ->
  r_op r = HALT \/ r_op r = UNDEFINED ->
  exists from_symbol from_state rest tape,
    r_details r = DCell from_symbol from_state :: rest /\
    0 <= r_steps r /\ 0 <= r_nonzeros r /\
    halts_at (table_of tab) initial (Z.to_nat (r_steps r)) from_state from_symbol
             (cond_eqb (r_op r) HALT) tape /\
    score tape (Z.to_nat (r_nonzeros r)).
Proof.
  intros n m tab g mc mr next d r rules W V E T.
  destruct (run_recursive_ok n m tab g mc mr next d r rules False W V E T ltac:(tauto)) as (H & _).
  unfold report_ok in H. intros [Ho|Ho]; rewrite Ho in *;
    destruct H as (q & a & ds & tape & D & S1 & S2 & Hh & Sc & _); exists a, q, ds, tape; auto.
Qed.

(** Infinite verdicts are true (for a repeat inside a macro cell see C12), and the
    states reported to recur are exactly those visited infinitely often. *)
Theorem C52_infinite_verdicts_partial :
  forall n m tab g mc mr next d r rules, wf_ttable n m tab -> valid_setting g = true ->
  run_recursive tab g mc mr next d = Some (r, rules) -> forallb trusted_rule rules = true ->
  r_op r = INF_REPEAT ->
  exists reason states, r_inf r = Some (reason, states) /\
    (reason <> INF_MACRO_STEP \/ repeat_trusted n m g -> nonhalting (table_of tab) initial) /\
    (reason <> INF_MACRO_STEP -> forall l, states = Some l -> forall q, In q l <->
       forall k, exists i c, (k <= i)%nat /\ steps (table_of tab) i initial = Some c /\ st c = q).
Proof.
  intros n m tab g mc mr next d r rules W V E T Ho.
  destruct (run_recursive_ok n m tab g mc mr next d r rules False W V E T ltac:(tauto)) as (H & _).
  unfold report_ok in H. rewrite Ho in H.
  destruct H as (reason & states & Hi & H & Hs). exists reason, states. split; [exact Hi|]. split.
  - intros [Hr|Hr]; [apply H; congruence|].
    destruct (run_recursive_ok n m tab g mc mr next d r rules True W V E T ltac:(auto)) as (_ & H2).
    specialize (H2 I). unfold report_ok in H2. rewrite Ho in H2.
    destruct H2 as (? & ? & _ & H2 & _). apply H2. auto.
  - intros Hr l -> q. exact (proj1 (Hs Hr) q).
Qed.

(** A simulation that is still going shows the machine after the reported number
    of steps; also the last visit to each state. *)
Theorem C52_running_snapshot_partial :
  forall n m tab g mc mr next d r rules, wf_ttable n m tab -> valid_setting g = true ->
  run_recursive tab g mc mr next d = Some (r, rules) -> forallb trusted_rule rules = true ->
  r_op r = RUNNING \/ r_op r = GAVE_UP ->
  0 <= r_steps r /\ 0 <= r_nonzeros r /\
  exists c, steps (table_of tab) (Z.to_nat (r_steps r)) initial = Some c /\
            score (tp c) (Z.to_nat (r_nonzeros r)) /\
            forall seen, r_seen r = Some seen -> forall q,
              match nd_get q seen with
              | Some j => 0 <= j < r_steps r /\
                  (exists e, steps (table_of tab) (Z.to_nat j) initial = Some e /\ st e = q) /\
                  forall i e, j < i < r_steps r ->
                    steps (table_of tab) (Z.to_nat i) initial = Some e -> st e <> q
              | None => forall i e, 0 <= i < r_steps r ->
                    steps (table_of tab) (Z.to_nat i) initial = Some e -> st e <> q
              end.
Proof.
  intros n m tab g mc mr next d r rules W V E T Ho.
  destruct (run_recursive_ok n m tab g mc mr next d r rules False W V E T ltac:(tauto)) as (H & _).
  unfold report_ok in H.
  destruct Ho as [Ho|Ho]; rewrite Ho in H; destruct H as (S0 & N0 & c & Ec & Sc & Hs);
    (split; [exact S0|]; split; [exact N0|]; exists c; split; [exact Ec|]; split; [exact Sc|];
     intros seen Es q; rewrite Es in Hs; destruct (Hs q) as [H1 H2];
     destruct (nd_get q seen) as [j|]; simpl in H2;
     [destruct H2 as (Hj & Hv & Hl); split; [lia|]; split; [exact Hv|];
      intros i e Hi; apply Hl; lia
     |intros i e Hi; apply H2; lia]).
Qed.

(** A machine that builds 1^x 2 3^14 and then moves the 1s over one by one and back,
    using up a 3 each time: the outer loop is proven with the rule for the inner one. *)
Definition nest_rows : list quint :=
  let q a b c d e := Quint a b (Some c) d (SRun e) in
  [q 0 0 3 L 1; q 1 0 3 L 2; q 2 0 3 L 3; q 3 0 3 L 4; q 4 0 3 L 5; q 5 0 3 L 6; q 6 0 3 L 7; q 7 0 3 L 8;
   q 8 0 3 L 9; q 9 0 3 L 10; q 10 0 3 L 11; q 11 0 3 L 12; q 12 0 3 L 13; q 13 0 3 L 14; q 14 0 2 L 15;
   q 15 1 2 R 16; q 15 0 0 R 17; q 16 2 2 L 18; q 18 2 2 L 15; q 17 2 1 R 17; q 17 3 2 L 15;
   Quint 17 0 (Some 1) R SHalt]%nat.
Definition nest : ttable := match tm_from_quintuples nest_rows 19 4 with Some t => t | None => [] end.
Lemma nest_wf : wf_ttable 19 4 nest.
Proof. apply (quintuples_wf nest_rows); [lia|lia|vm_compute; reflexivity]. Qed.

Example C52_example_halt :
  exists r rules tape,
    run_recursive nest SBase (Z.to_nat 100000) 10 0 (LoopSeek 3000) = Some (r, rules) /\
    existsb rr_meta rules = true /\ forallb trusted_rule rules = true /\ r_loops r = 160%nat /\
    halts_at (table_of nest) initial (Z.to_nat 480) 17 0 true tape.
Proof.
  destruct (run_recursive nest SBase (Z.to_nat 100000) 10 0 (LoopSeek 3000)) as [[r rules]|] eqn:E;
    [|vm_compute in E; discriminate].
  assert (T : existsb rr_meta rules = true /\ forallb trusted_rule rules = true /\ r_loops r = 160%nat /\
              r_op r = HALT /\ r_steps r = 480 /\ exists l, r_details r = DCell 0%nat 17%nat :: l).
  { vm_compute in E. injection E as <- <-. vm_compute. repeat split. eauto. }
  destruct T as (T1 & T2 & T3 & T4 & T5 & l & T6).
  destruct (C52_halting_exact_partial 19 4 nest SBase _ _ _ _ r rules nest_wf eq_refl E T2 (or_introl T4))
    as (a & q & rest & tape & D & _ & _ & Hh & _).
  rewrite T6 in D. injection D as <- <- <-. rewrite T4, T5 in Hh.
  exists r, rules, tape. auto.
Qed.

(** 1RB2LA1RZ_1RC2LA0RC_1LB2LB2LA never halts; a rule proven with another one shows it *)
Definition inf_rows : list quint :=
  let q a b c d e := Quint a b (Some c) d (SRun e) in
  [q 0 0 1 R 1; q 0 1 2 L 0; Quint 0 2 (Some 1) R SHalt;
   q 1 0 1 R 2; q 1 1 2 L 0; q 1 2 0 R 2;
   q 2 0 1 L 1; q 2 1 2 L 1; q 2 2 2 L 0]%nat.
Definition inf_tm : ttable := match tm_from_quintuples inf_rows 3 3 with Some t => t | None => [] end.
Lemma inf_wf : wf_ttable 3 3 inf_tm.
Proof. apply (quintuples_wf inf_rows); [lia|lia|vm_compute; reflexivity]. Qed.

Example C52_example_infinite :
  exists r rules,
    run_recursive inf_tm SBase (Z.to_nat 100000) 10 0 (LoopSeek 400) = Some (r, rules) /\
    existsb rr_meta rules = true /\ forallb trusted_rule rules = true /\
    nonhalting (table_of inf_tm) initial.
Proof.
  destruct (run_recursive inf_tm SBase (Z.to_nat 100000) 10 0 (LoopSeek 400)) as [[r rules]|] eqn:E;
    [|vm_compute in E; discriminate].
  assert (T : existsb rr_meta rules = true /\ forallb trusted_rule rules = true /\
              r_op r = INF_REPEAT /\ exists l, r_inf r = Some (INF_PROOF_SYSTEM, l)).
  { vm_compute in E. injection E as <- <-. vm_compute. repeat split. eauto. }
  destruct T as (T1 & T2 & T3 & l & T4).
  destruct (C52_infinite_verdicts_partial 3 3 inf_tm SBase _ _ _ _ r rules inf_wf eq_refl E T2 T3)
    as (reason & states & D & H & _).
  exists r, rules. do 3 (split; [auto|]). apply H. left. congruence.
Qed.

(** 1RB2RA1LC_2LA1RB1RZ_0RB1LA2RC: 1000 loops with four rules cover 7 * 10^11 steps *)
Definition run_rows : list quint :=
  let q a b c d e := Quint a b (Some c) d (SRun e) in
  [q 0 0 1 R 1; q 0 1 2 R 0; q 0 2 1 L 2;
   q 1 0 2 L 0; q 1 1 1 R 1; Quint 1 2 (Some 1) R SHalt;
   q 2 0 0 R 1; q 2 1 1 L 0; q 2 2 2 R 2]%nat.
Definition run_tm : ttable := match tm_from_quintuples run_rows 3 3 with Some t => t | None => [] end.
Lemma run_wf : wf_ttable 3 3 run_tm.
Proof. apply (quintuples_wf run_rows); [lia|lia|vm_compute; reflexivity]. Qed.

Example C52_example_running :
  exists rules c,
    existsb rr_meta rules = true /\ forallb trusted_rule rules = true /\
    steps (table_of run_tm) (Z.to_nat 733009849017) initial = Some c.
Proof.
  destruct (run_recursive run_tm SBase (Z.to_nat 100000) 10 0 (LoopSeek 1000)) as [[r rules]|] eqn:E;
    [|vm_compute in E; discriminate].
  assert (T : existsb rr_meta rules = true /\ forallb trusted_rule rules = true /\
              r_op r = RUNNING /\ r_steps r = 733009849017).
  { vm_compute in E. injection E as <- <-. vm_compute. repeat split. }
  destruct T as (T1 & T2 & T3 & T4).
  destruct (C52_running_snapshot_partial 3 3 run_tm SBase _ _ _ _ r rules run_wf eq_refl E T2 (or_introl T3))
    as (_ & _ & c & Ec & _).
  rewrite T4 in Ec. exists rules, c. auto.
Qed.

Print Assumptions C52_infinite_verdict_refuted.
Print Assumptions C52_step_count_refuted.
Print Assumptions C52_halting_exact_partial.
Print Assumptions C52_infinite_verdicts_partial.
Print Assumptions C52_running_snapshot_partial.
