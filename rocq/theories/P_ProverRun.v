(** * The simulator with the rule prover, in every macro setting *)
Require Import ZArith List Lia Bool Arith.
From Verif Require Import Spec_TM M_Turing_Machine P_Stream P_SimLimited P_Macro P_Repeat P_Pump
     M_Tape M_Simulator P_Tape P_Simulator M_Settings P_Settings M_Prover M_ProverRun P_Nums P_Rule P_MakeRule P_Apply.
Import ListNotations.
Open Scope Z_scope.

Lemma run_any_ok Gd T {Sym St} (M : machine Sym St) mc mr next d : (0 < mr)%nat -> sound_machine Gd T Sym St M ->
  exists r, match drive M (log_and_apply M mc mr) d (prover_init next, sim_init zops M) with
            | Some (_, s) => Some (report_of M s)
            | None => None
            end = Some r /\ report_ok Gd T r.
Proof.
  intros Hmr (Rp & halted & MS & SW & PU).
  assert (P0 : rules_ok T M Rp (prover_init next)) by (intros k r []).
  destruct (drive_ok Gd T M Rp halted MS SW _ _ (lap_ok Gd T M Rp halted MS SW PU mc mr Hmr) d
              (prover_init next) (sim_init zops M) P0
              (sim_init_ok Gd T M Rp halted MS)) as (p' & s' & -> & _ & H).
  eexists. split; [reflexivity|]. eapply sim_report_ok; eauto.
Qed.

Lemma run_prover_ok n m tab g mc mr next d (Gd : Prop) : wf_ttable n m tab -> valid_setting g = true ->
  (0 < mr)%nat -> (Gd -> repeat_trusted n m g) ->
  exists r, run_prover tab g mc mr next d = Some r /\
    (report_ok False (table_of tab) r) /\ (Gd -> report_ok True (table_of tab) r).
Proof.
  intros W V Hmr Tr.
  assert (H1 : exists r, run_prover tab g mc mr next d = Some r /\ report_ok False (table_of tab) r).
  { unfold run_prover.
    apply (with_machine_prop tab g _ _ (fun o => exists r, o = Some r /\ report_ok False (table_of tab) r)
             (setting_exact n m tab g W V)).
    intros Sym St M H. now apply run_any_ok. }
  destruct H1 as (r & E & H1). exists r. split; [exact E|]. split; [exact H1|].
  intros G.
  assert (H2 : exists r, run_prover tab g mc mr next d = Some r /\ report_ok True (table_of tab) r).
  { unfold run_prover.
    apply (with_machine_prop tab g _ _ (fun o => exists r, o = Some r /\ report_ok True (table_of tab) r)
             (setting_trusted n m tab g W V (Tr G))).
    intros Sym St M H. now apply run_any_ok. }
  destruct H2 as (r' & E' & H2). congruence.
Qed.

Lemma run_prover_seek n m tab g mc mr next z r : wf_ttable n m tab -> valid_setting g = true ->
  (0 < mr)%nat -> run_prover tab g mc mr next (Seek z) = Some r -> r_op r = RUNNING -> z <= r_steps r.
Proof.
  intros W V Hmr E Er.
  assert (G : exists r, run_prover tab g mc mr next (Seek z) = Some r /\ (r_op r = RUNNING -> z <= r_steps r)).
  { unfold run_prover.
    apply (with_machine_prop tab g _ _ (fun o => exists r, o = Some r /\ (r_op r = RUNNING -> z <= r_steps r))
             (setting_exact n m tab g W V)).
    intros Sym St M (Rp & halted & MS & SW & PU).
    assert (P0 : rules_ok (table_of tab) M Rp (prover_init next)) by (intros k r0 []).
    destruct (drive_steps False (table_of tab) M Rp halted MS SW _ _
                (lap_ok False (table_of tab) M Rp halted MS SW PU mc mr Hmr) (Seek z) (prover_init next) (sim_init zops M) P0
                (sim_init_ok False _ M Rp halted MS)) as (k & [p s] & E1 & _ & E3).
    rewrite E1. eexists. split; [reflexivity|]. exact E3. }
  destruct G as (r' & E' & G). assert (r' = r) by congruence. subst. auto.
Qed.

(** ** what the configurations of each setting stand for *)
Definition with_denoted (n m : nat) (tab : ttable) (g : setting) {A : Type}
  (f : forall Sym St, machine Sym St -> (dcfg Sym St -> config -> Prop) -> A) : A :=
  match g with
  | SBase => f _ _ (simple_machine tab) (Rsimple n m)
  | SBlock k off mb =>
    f _ _ (block_machine (simple_machine tab) k off mb) (Rblock (simple_machine tab) (Rsimple n m) k)
  | SBack mk => f _ _ (back_machine (simple_machine tab) mk) (Rback (Rsimple n m))
  | SBlockBack k off mb mk =>
    f _ _ (back_machine (block_machine (simple_machine tab) k off mb) mk)
      (Rback (Rblock (simple_machine tab) (Rsimple n m) k))
  end.

Lemma denoted_sound n m tab g : wf_ttable n m tab -> valid_setting g = true ->
  with_denoted n m tab g (fun Sym St M Rp =>
    exists halted, msound False (table_of tab) M Rp halted /\ seen_wf M Rp /\ pumpable Rp).
Proof.
  intros W V. assert (NF : forall P : Prop, False -> P) by tauto.
  pose proof (simple_msound False n m tab W) as MS.
  pose proof (simple_seen_wf n m tab W) as SW.
  destruct g as [|k off mb|mk|k off mb mk]; simpl in *.
  - eexists; split; [exact MS|]. split; [exact SW|apply simple_pump].
  - apply andb_true_iff in V. destruct V as [V1 V2].
    apply Nat.ltb_lt in V1. apply Nat.ltb_lt in V2. eexists. split; [|split].
    + exact (block_msound _ _ _ _ _ k V1 off V2 mb MS (NF _) SW).
    + exact (block_seen_wf _ _ _ _ _ k off mb MS (NF _) SW).
    + apply block_pump; [exact V1|apply simple_pump].
  - eexists. split; [|split].
    + exact (back_msound _ _ _ _ _ mk MS (NF _) SW).
    + exact (back_seen_wf _ _ _ _ _ mk MS (NF _) SW).
    + apply back_pump, simple_pump.
  - apply andb_true_iff in V. destruct V as [V1 V2].
    apply Nat.ltb_lt in V1. apply Nat.ltb_lt in V2.
    pose proof (block_msound _ _ _ _ _ k V1 off V2 mb MS (NF _) SW) as MS2.
    pose proof (block_seen_wf _ _ _ _ _ k off mb MS (NF _) SW) as SW2.
    eexists. split; [|split].
    + exact (back_msound _ _ _ _ _ mk MS2 (NF _) SW2).
    + exact (back_seen_wf _ _ _ _ _ mk MS2 (NF _) SW2).
    + apply back_pump, block_pump; [exact V1|apply simple_pump].
Qed.

Lemma with_denoted_mono n m tab g
  (P Q : forall Sym St, machine Sym St -> (dcfg Sym St -> config -> Prop) -> Prop) :
  with_denoted n m tab g P -> (forall Sym St M Rp, P Sym St M Rp -> Q Sym St M Rp) ->
  with_denoted n m tab g Q.
Proof. intros H F. destruct g; simpl in *; apply F, H. Qed.

(** a tape with the symbols of [t] and positive counts *)
Lemma mk_blks_wf {Sym} (i0 : Sym) h : hwf i0 h -> forall vs,
  Forall2 (fun a b : option Z => match a, b with None, None => True | Some _, Some z => 1 <= z | _, _ => False end)
          (map k_num h) vs ->
  hwf i0 (blks (map k_sym h) vs).
Proof.
  induction 1 as [|s z h Hz H IH]; simpl; intros vs F; inversion F as [|? o ? vs' E F']; subst.
  - inversion F'; subst. destruct o; [contradiction|]. constructor.
  - destruct o as [y|]; [|contradiction]. simpl. constructor; [lia|auto].
Qed.
Lemma mk_wf {Sym} (i0 : Sym) t : twf i0 t -> forall vs,
  Forall2 (fun a b : option Z => match a, b with None, None => True | Some _, Some z => 1 <= z | _, _ => False end)
          (nums t) vs ->
  twf i0 (mk (shape t) vs).
Proof.
  intros [A B] vs F. unfold nums in F. apply Forall2_split in F.
  rewrite rev_length, map_length in F. destruct F as [F1 F2].
  apply Forall2_rev in F1, F2. rewrite rev_involutive in F1, F2.
  unfold mk, shape. split; cbn [ct_l ct_r]; rewrite map_length; apply mk_blks_wf; auto.
Qed.
