(** * C34, C35, C50: the backtracking and reverse engineering filters *)
Require Import ZArith List Lia Bool Arith.
From Verif Require Import Spec_TM M_Turing_Machine P_Macro P_Quint P_Compute M_Filters P_Filters Prop_Macro.
Import ListNotations.

(** C35: a machine the reverse engineering filter reports infinite never halts *)
Theorem C35_reverse_engineer_sound n m tab :
  wf_ttable n m tab -> is_infinite tab n m = Some true -> nonhalting (table_of tab) initial.
Proof. apply is_infinite_ok. Qed.

(** a cell reported as unreachable is never read *)
Theorem C35_unreachable_cell n m tab s q x :
  wf_ttable n m tab -> get_stats tab n m = Some s -> cannot_reach_halt s (q, x) = Some true ->
  forall k c, steps (table_of tab) k initial = Some c -> ~ (st c = q /\ tp c (hd c) = x).
Proof. intros W E1 E2. exact (unreachable_ok n m tab W s (q, x) E1 E2). Qed.

(** the filter answers on every machine *)
Theorem C35_reverse_engineer_answers n m tab : wf_ttable n m tab -> exists b, is_infinite tab n m = Some b.
Proof. apply is_infinite_total. Qed.

(** a machine for each of the filter's three reasons: no way to state 2; symbol 2 never written;
    symbol 1 is written to the right only and state 1 entered to the right only *)
Definition rev_rows : list quint :=
  let q a b c d e := Quint a b (Some c) d (SRun e) in
  [q 0 0 1 R 1; q 0 1 1 R 0; q 1 0 0 L 0; q 2 0 0 L 0; q 2 1 1 R 0]%nat.
Definition rev_tab := match tm_from_quintuples rev_rows 3 3 with Some t => t | None => [] end.
Example C35_example :
  wf_ttable 3 3 rev_tab /\ is_infinite rev_tab 3 3 = Some true /\ is_infinite bb2 2 2 = Some false /\
  match get_stats rev_tab 3 3 with Some s => s_halts s = [(0, 2); (1, 1); (1, 2); (2, 2)]%nat | None => False end.
Proof. split; [apply (quintuples_wf rev_rows); [lia|lia|reflexivity]|]. vm_compute. auto. Qed.

(** C34: if the search succeeds, the machine never halts, unless its very first transition does *)
Theorem C34_backtrack_sound_partial n m tt steps_ width o :
  wf_tuples n m tt ->
  (exists w d q, tcell_at tt 0 0 = Some (w, d, SRun q)) ->
  backtrack_ttable tt steps_ width = Some o ->
  match o with Some r => b_success r = true | None => True end ->
  nonhalting (tuple_table tt) initial.
Proof.
  intros W (w0 & d0 & q0 & A0). unfold backtrack_ttable. destruct (get_info tt) as [inf|] eqn:INF; [|discriminate]. intros E S.
  destruct (back_halts_ok n m tt W inf INF steps_ width (i_halts inf) None o) as [H _]; [discriminate|exact E|].
  specialize (H S). destruct (info_ok n m tt W inf INF) as (_ & F).
  intros k. induction k as [|k IH]; [discriminate|]. rewrite steps_S.
  destruct (steps (tuple_table tt) k initial) as [c|] eqn:Ek; [clear IH|congruence]. intros N.
  destruct (b_reach n m tt W _ _ Ek) as [Q X]. destruct (tcell_some n m tt W _ _ Q (X (hd c))) as ([[w d] s] & Ec).
  unfold step, tuple_table in N. rewrite Ec in N. destruct s as [q|]; [discriminate|].
  specialize (F _ _ Q (X (hd c)) _ _ _ Ec). cbn in F. destruct (H _ F) as (r & E1 & S1).
  destruct (single_ok n m tt W inf INF _ _ _ _ E1) as [K _]. destruct k as [|k].
  - cbn in Ek. injection Ek as <-. cbn in Ec. congruence.
  - apply (K S1 k c Ek). auto.
Qed.

(** without that exception the claim is false: the halting configuration itself is never
    compared with the start configuration *)
Definition back_bad : tuples := [[(1, R, SHalt); (1, R, SRun 1)]; [(1, L, SRun 1); (1, R, SRun 1)]]%nat.
Theorem C34_first_step_refuted :
  wf_tuples 2 2 back_bad /\
  backtrack_ttable back_bad 10 10 = Some (Some (BResult true false 1 1 1)) /\
  exists t, halts_at (tuple_table back_bad) initial 1 0 0 true t.
Proof.
  split; [|split; [vm_compute; reflexivity|apply halts_check_ok; vm_compute; reflexivity]].
  split; [lia|]. split; [lia|]. split; [reflexivity|]. split.
  - intros row [<-|[<-|[]]]; reflexivity.
  - intros q s w d q' E. destruct q as [|[|q]]; [| |destruct q; discriminate]; destruct s as [|[|s]]; try (destruct s; discriminate);
      cbn in E; inversion E; subst; lia.
Qed.

(** the search answers whenever at least one step is allowed; without a halting cell it returns
    None, on which the caller fails *)
Theorem C34_backtrack_answers n m tt steps_ width :
  wf_tuples n m tt -> (0 < steps_)%nat -> exists o, backtrack_ttable tt steps_ width = Some o.
Proof.
  intros W S. unfold backtrack_ttable. destruct (info_total n m tt W) as (inf & INF). rewrite INF.
  apply (back_halts_total n m tt W inf INF); [exact S|]. intros h I.
  destruct (info_ok n m tt W inf INF) as ((_ & _ & _ & _ & H) & _). destruct (H h I) as (w & d & E). eapply tcell_range; eassumption.
Qed.

(** C50: the result halted is true only if the machine halts, and max_steps then is the number of
    steps before the halting transition *)
Theorem C50_backtrack_halted_exact n m tt steps_ width r :
  wf_tuples n m tt -> backtrack_ttable tt steps_ width = Some (Some r) -> b_halted r = true ->
  b_success r = false /\ exists q s t, halts_at (tuple_table tt) initial (S (b_steps r)) q s true t.
Proof.
  intros W. unfold backtrack_ttable. destruct (get_info tt) as [inf|] eqn:INF; [|discriminate]. intros E Hh.
  destruct (back_halts_ok n m tt W inf INF steps_ width (i_halts inf) None (Some r)) as [_ H]; [discriminate|exact E|].
  destruct (H r eq_refl Hh) as (S & h & c & I & E1 & E2 & E3). split; [exact S|].
  destruct (info_ok n m tt W inf INF) as ((_ & _ & _ & _ & HH) & _). destruct (HH h I) as (w & d & Ec).
  exists (st c), (tp c (hd c)), (put (tp c) (hd c) w), (b_steps r), c, w, d. split; [reflexivity|]. split; [exact E1|].
  split; [reflexivity|]. split; [reflexivity|]. split; [|reflexivity]. unfold tuple_table. now rewrite E2, E3, Ec.
Qed.

(** [back_good] halts only on a path that needs a 1 to the right of the head, where it never
    leaves one; [back_halt] halts *)
Definition back_good : tuples :=
  [[(1, R, SRun 1); (0, L, SRun 2)]; [(1, R, SRun 0); (0, L, SRun 0)]; [(1, R, SRun 1); (0, R, SHalt)]]%nat.
Definition back_halt : tuples := [[(1, R, SRun 1); (1, R, SHalt)]; [(1, L, SRun 0); (0, L, SRun 1)]]%nat.
Example C34_example : wf_tuples 3 2 back_good /\
  exists r, backtrack_ttable back_good 20 20 = Some (Some r) /\ b_success r = true /\ b_steps r = 3%nat.
Proof.
  split; [|eexists; split; [vm_compute; reflexivity|split; reflexivity]].
  split; [lia|]. split; [lia|]. split; [reflexivity|]. split.
  - intros row [<-|[<-|[<-|[]]]]; reflexivity.
  - intros q s w d q' E. destruct q as [|[|[|q]]]; [| | |destruct q; discriminate]; destruct s as [|[|s]]; try (destruct s; discriminate);
      cbn in E; inversion E; subst; lia.
Qed.
Example C50_example : exists r, backtrack_ttable back_halt 20 20 = Some (Some r) /\ b_halted r = true.
Proof. eexists. split; [vm_compute; reflexivity|]. reflexivity. Qed.

Print Assumptions C35_reverse_engineer_sound.
Print Assumptions C35_unreachable_cell.
Print Assumptions C35_reverse_engineer_answers.
Print Assumptions C34_backtrack_sound_partial.
Print Assumptions C34_first_step_refuted.
Print Assumptions C34_backtrack_answers.
Print Assumptions C50_backtrack_halted_exact.
