(** * Every macro setting is a sound simulation of the base machine *)
Require Import ZArith List Lia Bool Arith.
From Verif Require Import Spec_TM M_Turing_Machine P_Stream P_SimLimited P_Macro P_Repeat P_Pump
     M_Tape M_Simulator P_Tape P_Simulator M_Settings.
Import ListNotations.
Open Scope Z_scope.

Definition sound_machine (Gd : Prop) (T : table) (Sym St : Type) (M : machine Sym St) : Prop :=
  exists Rp halted, msound Gd T M Rp halted /\ seen_wf M Rp /\ pumpable Rp.

(** settings whose "repeat inside a macro cell" is trusted: all but a backsymbol
    layer over blocks that may be abandoned (C07) *)
Definition repeat_trusted (n m : nat) (g : setting) : Prop :=
  match g with
  | SBlockBack k off mb mk => enough_loops n m k mb
  | _ => True
  end.

Lemma setting_exact n m tab g : wf_ttable n m tab -> valid_setting g = true ->
  with_machine tab g (sound_machine False (table_of tab)).
Proof.
  intros W V. assert (NF : forall P : Prop, False -> P) by tauto.
  pose proof (simple_msound False n m tab W) as MS.
  pose proof (simple_seen_wf n m tab W) as SW.
  destruct g as [|k off mb|mk|k off mb mk]; simpl in *.
  - do 2 eexists; split; [exact MS|]. split; [exact SW|apply simple_pump].
  - apply andb_true_iff in V. destruct V as [V1 V2].
    apply Nat.ltb_lt in V1. apply Nat.ltb_lt in V2. do 2 eexists. split; [|split].
    + exact (block_msound _ _ _ _ _ k V1 off V2 mb MS (NF _) SW).
    + exact (block_seen_wf _ _ _ _ _ k off mb MS (NF _) SW).
    + apply block_pump; [exact V1|apply simple_pump].
  - do 2 eexists. split; [|split].
    + exact (back_msound _ _ _ _ _ mk MS (NF _) SW).
    + exact (back_seen_wf _ _ _ _ _ mk MS (NF _) SW).
    + apply back_pump, simple_pump.
  - apply andb_true_iff in V. destruct V as [V1 V2].
    apply Nat.ltb_lt in V1. apply Nat.ltb_lt in V2.
    pose proof (block_msound _ _ _ _ _ k V1 off V2 mb MS (NF _) SW) as MS2.
    pose proof (block_seen_wf _ _ _ _ _ k off mb MS (NF _) SW) as SW2.
    do 2 eexists. split; [|split].
    + exact (back_msound _ _ _ _ _ mk MS2 (NF _) SW2).
    + exact (back_seen_wf _ _ _ _ _ mk MS2 (NF _) SW2).
    + apply back_pump, block_pump; [exact V1|apply simple_pump].
Qed.

Lemma setting_trusted n m tab g : wf_ttable n m tab -> valid_setting g = true ->
  repeat_trusted n m g ->
  with_machine tab g (sound_machine True (table_of tab)).
Proof.
  intros W V Tr.
  pose proof (simple_msound True n m tab W) as MS.
  pose proof (simple_no_give_up n m tab W) as NG.
  pose proof (simple_seen_wf n m tab W) as SW.
  destruct g as [|k off mb|mk|k off mb mk]; simpl in *.
  - do 2 eexists; split; [exact MS|]. split; [exact SW|apply simple_pump].
  - apply andb_true_iff in V. destruct V as [V1 V2].
    apply Nat.ltb_lt in V1. apply Nat.ltb_lt in V2. do 2 eexists. split; [|split].
    + exact (block_msound _ _ _ _ _ k V1 off V2 mb MS (fun _ => NG) SW).
    + exact (block_seen_wf _ _ _ _ _ k off mb MS (fun _ => NG) SW).
    + apply block_pump; [exact V1|apply simple_pump].
  - do 2 eexists. split; [|split].
    + exact (back_msound _ _ _ _ _ mk MS (fun _ => NG) SW).
    + exact (back_seen_wf _ _ _ _ _ mk MS (fun _ => NG) SW).
    + apply back_pump, simple_pump.
  - apply andb_true_iff in V. destruct V as [V1 V2].
    apply Nat.ltb_lt in V1. apply Nat.ltb_lt in V2.
    assert (He' : enough_loops (length (map SRun (seq 0 n))) (length (seq 0 m)) k mb)
      by (rewrite map_length, !seq_length; exact Tr).
    pose proof (block_msound _ _ _ _ _ k V1 off V2 mb MS (fun _ => NG) SW) as MS2.
    pose proof (block_no_give_up _ _ _ _ _ _ _ MS NG (simple_finite n m) k off mb V1 He') as NG2.
    pose proof (block_seen_wf _ _ _ _ _ k off mb MS (fun _ => NG) SW) as SW2.
    do 2 eexists. split; [|split].
    + exact (back_msound _ _ _ _ _ mk MS2 (fun _ => NG2) SW2).
    + exact (back_seen_wf _ _ _ _ _ mk MS2 (fun _ => NG2) SW2).
    + apply back_pump, block_pump; [exact V1|apply simple_pump].
Qed.

(** what a report must mean *)
Definition report_ok (Gd : Prop) (T : table) (r : report) : Prop :=
  match r_op r with
  | RUNNING | GAVE_UP =>
    0 <= r_steps r /\ 0 <= r_nonzeros r /\
    exists c, steps T (Z.to_nat (r_steps r)) initial = Some c /\
              score (tp c) (Z.to_nat (r_nonzeros r)) /\
              oseen_ok T initial (r_steps r) (r_seen r)
  | HALT | UNDEFINED =>
    exists q a ds tape, r_details r = DCell a q :: ds /\ 0 <= r_steps r /\ 0 <= r_nonzeros r /\
      halts_at T initial (Z.to_nat (r_steps r)) q a (cond_eqb (r_op r) HALT) tape /\
      score tape (Z.to_nat (r_nonzeros r)) /\
      oseen_ok T initial (r_steps r) (r_seen r)
  | INF_REPEAT => exists reason st, r_inf r = Some (reason, st) /\
      ((reason = INF_MACRO_STEP -> Gd) -> nonhalting T initial) /\
      (reason <> INF_MACRO_STEP -> inf_states_ok T initial st /\ 0 <= r_steps r /\
         (exists c, steps T (Z.to_nat (r_steps r)) initial = Some c /\ inf_only T c st) /\
         oseen_ok T initial (r_steps r) (r_seen r))
  end.

Lemma sim_report_ok {Sym St} Gd T (M : machine Sym St) Rp halted (MS : msound Gd T M Rp halted)
  (SW : seen_wf M Rp) s : sim_ok Gd T M Rp s -> report_ok Gd T (report_of M s).
Proof.
  assert (A : snap T M Rp s -> 0 <= s_steps s /\ 0 <= sim_nonzeros zops M s /\
    exists c, steps T (Z.to_nat (s_steps s)) initial = Some c /\
              score (tp c) (Z.to_nat (sim_nonzeros zops M s)) /\
              oseen_ok T initial (s_steps s) (s_seen s)).
  { intros H. destruct (snap_score Gd T M Rp halted MS s H) as (N & c & Ec & Sc).
    destruct H as (_ & _ & Hn & _ & Hs). split; [exact Hn|]. split; [exact N|].
    exists c. auto. }
  unfold sim_ok, report_ok, report_of; simpl. destruct (s_op s) eqn:E; simpl.
  all: try exact A.
  all: try (intros (q & a & tape & ds & D & Hn & Hh & N & Sc & Hs); exists q, a, ds, tape; auto 8).
  intros (r & rs & Er & H). eauto.
Qed.

(** any driver is a number of steps *)
Lemma drive_steps {Sym St P} Gd T (M : machine Sym St) Rp halted (MS : msound Gd T M Rp halted)
  (SW : seen_wf M Rp) lap (Pok : P -> Prop) (PO : prover_ok T M Rp lap Pok) d p s :
  Pok p -> sim_ok Gd T M Rp s ->
  exists n ps, drive M lap d (p, s) = Some ps /\ sim_iter zops M lap n (p, s) = Some ps /\
    match d with
    | Steps k => n = k
    | LoopSeek k => s_op (snd ps) = RUNNING -> (k <= s_loops (snd ps))%nat
    | Seek z => s_op (snd ps) = RUNNING -> z <= s_steps (snd ps)
    end.
Proof.
  intros Hp Hs. destruct d as [k|k|z]; simpl.
  - destruct (sim_iter_ok Gd T M Rp halted MS SW lap Pok PO k p s Hp Hs) as (p' & s' & E & _).
    exists k, (p', s'). auto.
  - destruct (loop_seek_ok Gd T M Rp halted MS SW lap Pok PO k (k - s_loops s) p s Hp Hs ltac:(lia))
      as (n & ps & E1 & E2 & E3). exists n, ps. auto.
  - destruct (seek_ok Gd T M Rp halted MS SW lap Pok PO z (Z.to_nat (z - s_steps s)) p s Hp Hs)
      as (n & ps & E1 & E2 & E3); [intros; lia|]. exists n, ps. auto.
Qed.

Lemma drive_ok {Sym St P} Gd T (M : machine Sym St) Rp halted (MS : msound Gd T M Rp halted)
  (SW : seen_wf M Rp) lap (Pok : P -> Prop) (PO : prover_ok T M Rp lap Pok) d p s :
  Pok p -> sim_ok Gd T M Rp s ->
  exists p' s', drive M lap d (p, s) = Some (p', s') /\ Pok p' /\ sim_ok Gd T M Rp s'.
Proof.
  intros Hp Hs.
  destruct (drive_steps Gd T M Rp halted MS SW lap Pok PO d p s Hp Hs) as (n & [p1 s1] & E1 & E2 & _).
  destruct (sim_iter_ok Gd T M Rp halted MS SW lap Pok PO n p s Hp Hs) as (p' & s' & E & H1 & H2).
  exists p', s'. rewrite E1, <- E2, E. auto.
Qed.

Lemma no_prover_ok {Sym St} T (M : machine Sym St) Rp :
  prover_ok T M Rp no_prover (fun _ => True).
Proof. intros p tape q loops c _ _ _. exists p, PNothing. simpl. auto. Qed.

Lemma plain_ok Gd T {Sym St} (M : machine Sym St) d : sound_machine Gd T Sym St M ->
  exists r, match drive M no_prover d (tt, sim_init zops M) with
            | Some (_, s) => Some (report_of M s)
            | None => None
            end = Some r /\ report_ok Gd T r.
Proof.
  intros (Rp & halted & MS & SW & _).
  destruct (drive_ok Gd T M Rp halted MS SW no_prover _ (no_prover_ok T M Rp) d tt (sim_init zops M) I
              (sim_init_ok Gd T M Rp halted MS)) as (p' & s' & -> & _ & H).
  eexists. split; [reflexivity|]. eapply sim_report_ok; eauto.
Qed.

Lemma with_machine_prop tab g (P : forall Sym St, machine Sym St -> Prop) {A}
  (f : forall Sym St, machine Sym St -> A) (Q : A -> Prop) :
  with_machine tab g P -> (forall Sym St M, P Sym St M -> Q (f Sym St M)) ->
  Q (with_machine tab g f).
Proof. intros H F. destruct g; simpl in *; apply F, H. Qed.

Lemma run_plain_ok n m tab g d (Gd : Prop) : wf_ttable n m tab -> valid_setting g = true ->
  (Gd -> repeat_trusted n m g) ->
  exists r, run_plain tab g d = Some r /\
    (report_ok False (table_of tab) r) /\ (Gd -> report_ok True (table_of tab) r).
Proof.
  intros W V Tr. unfold run_plain.
  assert (H1 : exists r, run_plain tab g d = Some r /\ report_ok False (table_of tab) r).
  { unfold run_plain.
    apply (with_machine_prop tab g _ _ (fun o => exists r, o = Some r /\ report_ok False (table_of tab) r)
             (setting_exact n m tab g W V)).
    intros Sym St M H. now apply plain_ok. }
  destruct H1 as (r & E & H1). exists r. split; [exact E|]. split; [exact H1|].
  intros G.
  assert (H2 : exists r, run_plain tab g d = Some r /\ report_ok True (table_of tab) r).
  { unfold run_plain.
    apply (with_machine_prop tab g _ _ (fun o => exists r, o = Some r /\ report_ok True (table_of tab) r)
             (setting_trusted n m tab g W V (Tr G))).
    intros Sym St M H. now apply plain_ok. }
  destruct H2 as (r' & E' & H2). congruence.
Qed.
