(** * C74: the C++ programs that simulate machines of a file *)
Require Import ZArith List Lia Bool Arith Ascii String Permutation.
From Verif Require Import Spec_TM Spec_Rename M_Turing_Machine M_IO M_Enum P_IO P_Stream P_Macro M_Morphett P_Morphett M_Load P_Load M_Cpp P_Cpp Prop_Cpp
  M_CppLR P_CppLR Prop_CppLR M_CppIO P_CppIO Prop_CppIO P_CppCont M_CppSim.
Import ListNotations.
Open Scope nat_scope.

(** a machine that the programs can read and write *)
Definition plain_tm (tm : cpp_tm) : Prop :=
  1 <= c_states tm < 26 /\ 1 <= c_symbols tm < 10 /\ cpp_table (c_states tm) (c_symbols tm) tm.
(** a line with the text of the machine and a remark *)
Definition line_of (l : str) (tm : cpp_tm) : Prop :=
  exists text extra, write_cpp tm = PDone text /\ remark extra /\ ~ In newline extra /\ l = text ++ extra.
(** [l] is the line written for [tm] with the limit [K]; [halted] tells what it says *)
Definition sim_line (K : nat) (halted : bool) (l : str) (tm : cpp_tm) : Prop :=
  exists text, write_cpp tm = PDone text /\
  if halted then exists k q a b t, k <= K /\ halts_at (cpp_machine tm) initial k q a b t /\ l = text ++ list_ascii_of_string " Halt " ++ number_name k
  else exists c, steps (cpp_machine tm) K initial = Some c /\ l = text ++ list_ascii_of_string " Unknown " ++ number_name K.

Lemma plain_write tm : plain_tm tm -> write_cpp tm = PDone (trans_text (c_trans tm)) /\ ~ In newline (trans_text (c_trans tm)).
Proof.
  intros (Hn & Hm & Ht). pose proof (cpp_table_wf _ _ _ Ht) as W. split; [apply (write_wf (c_states tm) (c_symbols tm)); auto; lia|].
  apply (trans_text_line (c_states tm) (c_symbols tm)); [lia|lia|exact W].
Qed.

(** the machine that is read from the line: the same table, of the same size *)
Lemma plain_read l tm : plain_tm tm -> line_of l tm -> ~ In newline l /\ exists tm', read_cpp l = PDone tm' /\ plain_tm tm' /\
  write_cpp tm' = write_cpp tm /\ (forall i j, cpp_machine tm' i j = cpp_machine tm i j) /\ c_trans tm' = c_trans tm /\ c_states tm' = c_states tm /\ c_symbols tm' = c_symbols tm.
Proof.
  intros Hp (text & extra & Hw & Hr & Hx & ->). destruct (plain_write tm Hp) as (Ew & El). rewrite Ew in Hw. injection Hw as <-.
  split; [rewrite in_app_iff; tauto|]. destruct Hp as (Hn & Hm & Ht).
  destruct (C72_round_trip _ _ tm Hn Hm eq_refl eq_refl Ht) as (s & Es & _ & Rs). rewrite Ew in Es. injection Es as <-.
  destruct (Rs extra Hr) as (tm' & E & Et & En & Em). exists tm'. split; [exact E|].
  assert (Hp' : plain_tm tm').
  { unfold plain_tm. rewrite En, Em. split; [exact Hn|split; [exact Hm|]]. unfold cpp_table. rewrite Et. exact Ht. }
  split; [exact Hp'|]. split; [rewrite (proj1 (plain_write tm' Hp')), Et; auto|]. split; [|auto].
  intros i j. unfold cpp_machine. now rewrite Et.
Qed.

Lemma seek_spec tm K : plain_tm tm -> exists sim, cs_seek tm K cs_init = Some sim /\
  if cs_halted sim then cs_steps sim <= K /\ exists q a b t, halts_at (cpp_machine tm) initial (cs_steps sim) q a b t
  else cs_steps sim = K /\ exists c, steps (cpp_machine tm) K initial = Some c.
Proof.
  intros (Hn & Hm & Ht). pose proof (cpp_table_wf _ _ _ Ht) as W. pose proof (machine_tab _ _ tm W) as Em. unfold cs_seek.
  destruct (turns_spec _ _ tm W (K - cs_steps cs_init) cs_init initial srel_init) as (s & Es & H).
  { simpl. lia. } { intros z. simpl. lia. }
  change (cs_steps cs_init) with 0 in *. rewrite Nat.sub_0_r in *. exists s. split; [exact Es|].
  destruct (stop_at (table_of (to_tab (c_trans tm))) K initial) as [((i, q), a)|] eqn:E.
  - destruct H as (H1 & H2 & H3). unfold cs_halted. rewrite H1, H2. destruct (stop_at_some _ _ _ _ _ _ E) as (Hi & _). split; [lia|].
    destruct (stop_at_halts _ _ _ _ _ E) as (b & t & Hh). exists q, a, b, t. eapply halts_ext; eauto.
  - destruct H as (c' & H1 & (H2 & _) & H3). unfold cs_halted. rewrite H2. split; [exact H3|]. exists c'. now rewrite <- (steps_ext _ _ Em).
Qed.

Definition says (b : bool) : nat := if b then 1 else 0.
Lemma sim_lines_spec K lines tms : Forall2 (fun l tm => plain_tm tm /\ line_of l tm) lines tms ->
  forall turns s, List.length lines <= turns -> exists outs verdicts, Forall2 (fun o x => sim_line K (fst x) o (snd x)) outs (combine verdicts tms) /\
    List.length verdicts = List.length tms /\
    sim_lines turns (file_of lines) K s = PDone (SimOut (so_text s ++ file_of outs) (so_total s + List.length tms)
      (so_halt s + list_sum (map says verdicts)) (so_unknown s + list_sum (map (fun b => says (negb b)) verdicts))).
Proof.
  induction 1 as [|l tm lines tms (Hp & Hl) F IH]; intros turns s Ht.
  - exists [], []. split; [constructor|]. split; [reflexivity|]. destruct s. destruct turns; cbn; rewrite app_nil_r, !Nat.add_0_r; reflexivity.
  - destruct turns as [|turns]; [cbn in Ht; lia|]. cbn [List.length] in Ht. destruct (plain_read l tm Hp Hl) as (Nl & tm' & Er & Hp' & Ew & Em & _).
    destruct (seek_spec tm' K Hp') as (sim & Es & Hs). destruct (plain_write tm Hp) as (Et & Nt).
    destruct (IH turns (add_sim (trans_text (c_trans tm)) sim s) ltac:(lia)) as (outs & vs & Fo & Lv & E).
    exists ((trans_text (c_trans tm) ++ sim_verdict sim) :: outs), (cs_halted sim :: vs). split; [|split; [cbn; now rewrite Lv|]].
    + cbn [combine]. constructor; [|exact Fo]. cbn [fst snd]. exists (trans_text (c_trans tm)). split; [exact Et|]. unfold sim_verdict.
      destruct (cs_halted sim).
      * destruct Hs as (Hk & q & a & b & t & Hh). exists (cs_steps sim), q, a, b, t. split; [exact Hk|]. split; [|reflexivity]. eapply halts_ext; [|exact Hh]. exact Em.
      * destruct Hs as (Hk & c & Hc). exists c. rewrite Hk. split; [|reflexivity]. rewrite <- Hc. apply steps_ext. intros; now rewrite Em.
    + unfold file_of at 1. cbn [map List.concat sim_lines]. rewrite <- app_assoc. cbn [app]. rewrite (getline_line l _ Nl). fold (file_of lines).
      rewrite Er. cbn [pbind]. rewrite Es, Ew, Et. cbn [pbind]. rewrite E. cbn [so_text so_total so_halt so_unknown add_sim List.length map list_sum fold_right].
      unfold file_of at 2. cbn [map List.concat]. fold (file_of outs). rewrite <- !app_assoc. f_equal.
      destruct (cs_halted sim); cbn [says negb]; f_equal; unfold list_sum; cbn [fold_right]; lia.
Qed.

(** direct_sim_all writes one line for each line of the file: the text of the machine and a true verdict with the exact number of steps; the
    numbers it prints count the verdicts.  Python reads the number that is written. *)
Theorem C74_direct_all K lines tms : Forall2 (fun l tm => plain_tm tm /\ line_of l tm) lines tms ->
  exists out outs verdicts, direct_sim_all (file_of lines) K = PDone out /\ so_text out = file_of outs /\
    Forall2 (fun o x => sim_line K (fst x) o (snd x)) outs (combine verdicts tms) /\ List.length verdicts = List.length tms /\
    so_total out = List.length tms /\ so_halt out = count_occ bool_dec verdicts true /\ so_unknown out = count_occ bool_dec verdicts false /\
    forall k, py_int (number_name k) = Some (Z.of_nat k).
Proof.
  intros F. destruct (sim_lines_spec K lines tms F (List.length (file_of lines)) (SimOut [] 0 0 0) (file_of_length _)) as (outs & vs & Fo & Lv & E).
  eexists _, outs, vs. split; [exact E|]. cbn [so_text so_total so_halt so_unknown app Nat.add]. repeat split; auto; [| |apply number_int].
  - clear. induction vs as [|[] vs IH]; cbn; auto; unfold list_sum in IH; cbn in IH; auto.
  - clear. induction vs as [|[] vs IH]; cbn; auto; unfold list_sum in IH; cbn in IH; auto.
Qed.

(** The machines that it writes can be simulated again: with any limit the result is that for the first file. *)
Lemma lines_of_outs K outs verdicts tms : Forall2 (fun o x => sim_line K (fst x) o (snd x)) outs (combine verdicts tms) -> List.length verdicts = List.length tms ->
  Forall plain_tm tms -> Forall2 (fun l tm => plain_tm tm /\ line_of l tm) outs tms.
Proof.
  revert verdicts outs. induction tms as [|tm tms IH]; intros [|v vs] outs F Hl Hp; try discriminate; [inversion F; constructor|].
  cbn [combine] in F. inversion F as [|o x outs' y Ho F']; subst. inversion Hp; subst. injection Hl as Hl. constructor; [|eapply IH; eauto]. split; [assumption|].
  destruct Ho as (text & Et & H). cbn [fst snd] in *.
  assert (Nn : forall k, ~ In newline (number_name k)).
  { intros k Hin. destruct (proj2 (number_digits k) _ Hin) as (j & Hj & X). do 10 (destruct j as [|j]; [discriminate X|]). lia. }
  assert (G : forall word k, word = list_ascii_of_string " Halt " \/ word = list_ascii_of_string " Unknown " ->
    remark (word ++ number_name k) /\ ~ In newline (word ++ number_name k)).
  { intros word k Hw. split.
    - right. destruct Hw as [-> | ->]; cbn [list_ascii_of_string app]; eexists _, _; (split; [reflexivity|now left]).
    - rewrite in_app_iff. intros [Hi|Hi]; [|now apply Nn in Hi]. destruct Hw as [-> | ->]; cbn in Hi; intuition discriminate. }
  destruct v.
  - destruct H as (k & q & a & b & t & _ & _ & ->). destruct (G _ k (or_introl eq_refl)). exists text. eexists. repeat split; eauto.
  - destruct H as (c & _ & ->). destruct (G _ K (or_intror eq_refl)). exists text. eexists. repeat split; eauto.
Qed.

(** Only the machines matter, not the remarks. *)
Lemma sim_lines_same K lines tms : Forall2 (fun l tm => plain_tm tm /\ line_of l tm) lines tms ->
  forall lines', Forall2 (fun l tm => plain_tm tm /\ line_of l tm) lines' tms -> forall turns turns' s, List.length lines <= turns -> List.length lines' <= turns' ->
  sim_lines turns (file_of lines) K s = sim_lines turns' (file_of lines') K s.
Proof.
  induction 1 as [|l tm lines tms (Hp & Hl) F IH]; intros lines' F' turns turns' s Ht Ht'.
  - inversion F'; subst. destruct turns, turns'; reflexivity.
  - inversion F' as [|l' ? lines0 ? (Hp' & Hl') F0]; subst. cbn [List.length] in *. destruct turns as [|turns]; [lia|]. destruct turns' as [|turns']; [lia|].
    destruct (plain_read l tm Hp Hl) as (N1 & t1 & E1 & Q1 & W1 & _ & A1 & B1 & C1). destruct (plain_read l' tm Hp Hl') as (N2 & t2 & E2 & Q2 & W2 & _ & A2 & B2 & C2).
    unfold file_of. cbn [map List.concat sim_lines]. rewrite <- !app_assoc. cbn [app]. rewrite (getline_line l _ N1), (getline_line l' _ N2). fold (file_of lines). fold (file_of lines0).
    rewrite E1, E2. cbn [pbind].
    assert (Es : cs_seek t1 K cs_init = cs_seek t2 K cs_init).
    { unfold cs_seek. assert (X : forall k s0, cs_turns t1 k s0 = cs_turns t2 k s0); [|apply X]. induction k as [|k IHk]; intros s0; [reflexivity|]. cbn [cs_turns].
      assert (X : cs_step_safe t1 s0 = cs_step_safe t2 s0) by (unfold cs_step_safe, c_lookup; now rewrite A1, A2).
      rewrite X. destruct (cs_halted s0); [reflexivity|]. destruct (cs_step_safe t2 s0); [apply IHk|reflexivity]. }
    rewrite Es, W1, W2. destruct (cs_seek t2 K cs_init) as [sim|]; [|reflexivity]. rewrite (proj1 (plain_write tm Hp)). cbn [pbind]. apply IH; auto; lia.
Qed.
Theorem C74_again K1 K2 lines tms out : Forall2 (fun l tm => plain_tm tm /\ line_of l tm) lines tms -> direct_sim_all (file_of lines) K1 = PDone out ->
  direct_sim_all (so_text out) K2 = direct_sim_all (file_of lines) K2.
Proof.
  intros F E. destruct (C74_direct_all K1 lines tms F) as (out' & outs & vs & E' & Et & Fo & Lv & _). rewrite E in E'. injection E' as <-. rewrite Et.
  assert (Hp : Forall plain_tm tms) by (clear -F; induction F as [|l tm lines tms (Hp & _) F IH]; constructor; auto).
  unfold direct_sim_all. apply (sim_lines_same K2 outs tms); auto; [now apply (lines_of_outs K1 outs vs)|apply file_of_length|apply file_of_length].
Qed.

(** ** the programs for one machine of a file *)

Lemma skip_file (lines : list str) k : Forall (fun l => ~ In newline l) lines -> skip_lines k (file_of lines) = file_of (skipn k lines).
Proof.
  revert lines. induction k as [|k IH]; intros lines H; [reflexivity|]. cbn [skip_lines]. destruct lines as [|l lines]; [reflexivity|].
  inversion H; subst. unfold file_of at 1. cbn [map List.concat skipn]. rewrite <- app_assoc. cbn [app]. rewrite getline_line by assumption. now apply IH.
Qed.
Lemma read_line_spec (lines : list str) line_num : Forall (fun l => ~ In newline l) lines ->
  read_line_of (file_of lines) line_num = match nth_error lines (line_num - 1) with Some l => read_cpp l | None => PUndefined end.
Proof.
  intros H. unfold read_line_of. rewrite (skip_file _ _ H). generalize (line_num - 1). intros k. revert lines H.
  induction k as [|k IH]; intros [|l lines] H; try reflexivity.
  - inversion H; subst. cbn [skipn nth_error]. unfold file_of. cbn [map List.concat]. rewrite <- app_assoc. cbn [app]. now rewrite getline_line.
  - inversion H; subst. cbn [skipn nth_error]. now apply IH.
Qed.
Lemma lines_no_newline lines tms : Forall2 (fun l tm => plain_tm tm /\ line_of l tm) lines tms -> Forall (fun l => ~ In newline l) lines.
Proof. induction 1 as [|l tm lines tms (Hp & Hl) F IH]; constructor; auto. apply (plain_read l tm Hp Hl). Qed.
Lemma nth_line (lines : list str) tms k tm : Forall2 (fun l tm => plain_tm tm /\ line_of l tm) lines tms -> nth_error tms k = Some tm ->
  exists l, nth_error lines k = Some l /\ plain_tm tm /\ line_of l tm.
Proof.
  intros F. revert k. induction F as [|l t lines tms (Hp & Hl) F IH]; intros [|k] E; try discriminate; [injection E as <-; exists l; auto|]. now apply IH.
Qed.

(** direct_sim simulates the machine of the line that is asked for (lines are counted from 1) and tells the truth about it. *)
Theorem C74_direct_sim lines tms line_num K tm : Forall2 (fun l tm => plain_tm tm /\ line_of l tm) lines tms -> nth_error tms (line_num - 1) = Some tm ->
  exists k halted, direct_sim (file_of lines) line_num K = PDone (k, halted) /\
  if halted then k <= K /\ exists q a b t, halts_at (cpp_machine tm) initial k q a b t else k = K /\ exists c, steps (cpp_machine tm) K initial = Some c.
Proof.
  intros F E. destruct (nth_line _ _ _ _ F E) as (l & El & Hp & Hl). unfold direct_sim. rewrite (read_line_spec _ _ (lines_no_newline _ _ F)), El.
  destruct (plain_read l tm Hp Hl) as (_ & tm' & -> & Hp' & _ & Em & _). cbn [pbind]. destruct (seek_spec tm' K Hp') as (sim & -> & Hs).
  exists (cs_steps sim), (cs_halted sim). split; [reflexivity|]. destruct (cs_halted sim).
  - destruct Hs as (Hk & q & a & b & t & Hh). split; [exact Hk|]. exists q, a, b, t. eapply halts_ext; [|exact Hh]. exact Em.
  - destruct Hs as (Hk & c & Hc). split; [exact Hk|]. exists c. rewrite <- Hc. apply steps_ext. intros; now rewrite Em.
Qed.

(** lin_recur says that the machine of the line halts, repeats, or that it ran [2 ^ log] steps, and this is true; it finds every recurrence
    whose start and period are at most half of this limit. *)
Theorem C74_lin_recur lines tms line_num log tm : Forall2 (fun l tm => plain_tm tm /\ line_of l tm) lines tms -> nth_error tms (line_num - 1) = Some tm -> 1 <= log ->
  exists r, lin_recur_main (file_of lines) line_num log = PDone r /\
  match r with
  | LRHalt last _ k => exists q a b t, last = Some (q, a) /\ halts_at (cpp_machine tm) initial k q a b t
  | LRRec s p o k => nonhalting (cpp_machine tm) initial /\ repeats (cpp_machine tm) s p o /\ k = s + p
  | LRNone ref k => ref <> None /\ 2 ^ log <= k /\ (exists c, steps (cpp_machine tm) k initial = Some c) /\
      forall s p o, repeats (cpp_machine tm) s p o -> 2 ^ (log - 1) < Nat.max s p
  end.
Proof.
  intros F E Hlog. destruct (nth_line _ _ _ _ F E) as (l & El & Hp & Hl). unfold lin_recur_main. rewrite (read_line_spec _ _ (lines_no_newline _ _ F)), El.
  destruct (plain_read l tm Hp Hl) as (_ & tm' & -> & Hp' & _ & _ & Et & En & Es). cbn [pbind]. destruct Hp' as (Hn & Hm & Ht).
  assert (Em : cpp_machine tm' = cpp_machine tm) by (unfold cpp_machine; now rewrite Et).
  assert (H2 : 2 <= 2 ^ log) by (destruct log as [|log]; [lia|]; pose proof (Nat.pow_nonzero 2 log ltac:(lia)); cbn [Nat.pow]; lia).
  destruct (C70_halting_exact _ _ tm' (2 ^ log) (proj1 Hn) (proj1 Hm) Ht H2) as (N & A & _ & C).
  destruct (lr_detect tm' (2 ^ log)) as [[last ref k|s p o k|ref k]|] eqn:Ed; [| | |congruence].
  - eexists. split; [reflexivity|]. rewrite <- Em. eapply A. reflexivity.
  - eexists. split; [reflexivity|]. destruct (C70_recurrence_true _ _ tm' _ s p o k (proj1 Hn) (proj1 Hm) Ht Ed) as (X1 & X2 & X3 & _). rewrite <- Em. auto.
  - destruct (C ref k eq_refl) as (C1 & C2 & C3). destruct ref as [ref|]; [|congruence]. eexists. split; [reflexivity|]. rewrite <- Em. split; [exact C1|].
    split; [exact C2|]. split; [exact C3|]. intros s p o Hr. destruct (Nat.le_gt_cases (Nat.max s p) (2 ^ (log - 1))) as [Hle|]; [|assumption]. exfalso.
    assert (Hlt : 2 ^ (log - 1) < 2 ^ log) by (apply Nat.pow_lt_mono_r; lia).
    destruct (C70_recurrence_found _ _ tm' (2 ^ log) s p o (log - 1) (proj1 Hn) (proj1 Hm) Ht Hr ltac:(lia) ltac:(lia) Hlt) as (s' & p' & o' & k' & X). congruence.
Qed.

(** A line number behind the end of the file is not reported: the programs use a null pointer.  With log2(max_steps) = 0 lin_recur prints a number
    that was never assigned, for every machine. *)
Theorem C74_no_line_refuted (lines : list str) line_num K : Forall (fun l => ~ In newline l) lines -> List.length lines < line_num ->
  direct_sim (file_of lines) line_num K = PUndefined /\ lin_recur_main (file_of lines) line_num K = PUndefined.
Proof.
  intros H Hl. unfold direct_sim, lin_recur_main. rewrite (read_line_spec _ _ H). 
  destruct (nth_error lines (line_num - 1)) as [l|] eqn:E; [|auto].
  assert (X : line_num - 1 < List.length lines) by (apply nth_error_Some; congruence). lia.
Qed.
Theorem C74_log_zero_refuted lines tms line_num tm : Forall2 (fun l tm => plain_tm tm /\ line_of l tm) lines tms -> nth_error tms (line_num - 1) = Some tm ->
  lin_recur_main (file_of lines) line_num 0 = PUndefined.
Proof.
  intros F E. destruct (nth_line _ _ _ _ F E) as (l & El & Hp & Hl). unfold lin_recur_main. rewrite (read_line_spec _ _ (lines_no_newline _ _ F)), El.
  destruct (plain_read l tm Hp Hl) as (_ & tm' & -> & (Hn & Hm & Ht) & _). cbn [pbind Nat.pow].
  now rewrite (C70_limit_one_refuted _ _ tm' 1 (proj1 Hn) (proj1 Hm) Ht (Nat.le_refl 1)).
Qed.

(** ** A case: the Busy Beaver of two states and a machine that repeats *)

Definition bb2_tm : cpp_tm := CppTM 2 2 1 1 true 1 [[Lookup 1 R (SRun 1) false; Lookup 1 L (SRun 1) false]; [Lookup 1 L (SRun 0) false; Lookup 1 R SHalt false]].
Definition right_tm : cpp_tm := CppTM 2 2 1 1 true 2 [[Lookup 1 R (SRun 1) false; empty_trans]; [Lookup 1 R (SRun 0) false; empty_trans]].
Definition case_lines : list str := map list_ascii_of_string ["1RB1LB_1LA1RZ # BB(2)"; "1RB---_1RA---"]%string.
Example C74_case_lines : Forall2 (fun l tm => plain_tm tm /\ line_of l tm) case_lines [bb2_tm; right_tm].
Proof.
  assert (P1 : plain_tm bb2_tm).
  { split; [cbn; lia|split; [cbn; lia|]]. split; [reflexivity|]. intros row [<-|[<-|[]]]; (split; [reflexivity|]); intros x [<-|[<-|[]]]; right; cbn; repeat split; lia. }
  assert (P2 : plain_tm right_tm).
  { split; [cbn; lia|split; [cbn; lia|]]. split; [reflexivity|].
    intros row [<-|[<-|[]]]; (split; [reflexivity|]); intros x [<-|[<-|[]]]; try (now left); right; cbn; repeat split; lia. }
  constructor; [split; [exact P1|]|constructor; [split; [exact P2|]|constructor]].
  - exists (list_ascii_of_string "1RB1LB_1LA1RZ"), (list_ascii_of_string " # BB(2)"). split; [reflexivity|]. split; [right; eexists _, _; split; [reflexivity|now left]|].
    split; [cbn; intuition discriminate|reflexivity].
  - exists (list_ascii_of_string "1RB---_1RA---"), []. split; [reflexivity|]. split; [now left|]. split; [intros []|now rewrite app_nil_r].
Qed.
Example C74_case : direct_sim_all (file_of case_lines) 10 =
    PDone (SimOut (file_of (map list_ascii_of_string ["1RB1LB_1LA1RZ Halt 6"; "1RB---_1RA--- Unknown 10"]%string)) 2 1 1) /\
  direct_sim (file_of case_lines) 1 100 = PDone (6, true) /\ direct_sim (file_of case_lines) 2 100 = PDone (100, false) /\
  lin_recur_main (file_of case_lines) 2 3 = PDone (LRRec 2 2 2 4) /\ direct_sim (file_of case_lines) 3 100 = PUndefined.
Proof. repeat split; vm_compute; reflexivity. Qed.

Print Assumptions C74_direct_all.
Print Assumptions C74_again.
Print Assumptions C74_direct_sim.
Print Assumptions C74_lin_recur.
Print Assumptions C74_no_line_refuted.
Print Assumptions C74_log_zero_refuted.
