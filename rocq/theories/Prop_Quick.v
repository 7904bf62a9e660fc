(** * Property C65: what Quick_Sim prints *)
Require Import ZArith List Lia Bool Arith.
From Verif Require Import Spec_TM M_Turing_Machine M_Direct M_Tape M_Simulator M_Settings M_Prover M_ProverRun
  M_ProverLim M_ProverRec M_LinRecur M_CTL M_Filters M_Pipeline M_Quick
  P_Stream P_SimLimited P_Repeat P_Macro P_Simulator P_Settings P_Apply P_ProverRun P_LimRun P_RecRun P_RecApply P_Direct P_Quint
  P_LinRecur P_Filters P_Pipeline P_CTLTerm P_Answers P_Quick P_Compute Prop_Macro Prop_Prover Prop_ProverRec Prop_LinRecur Prop_CTL Prop_Pipeline.
Import ListNotations.
Open Scope nat_scope.

(** what an answer must mean *)
Definition answer_true (trusted : Prop) (T : table) (a : answer) : Prop :=
  match a with
  | AHalted k sc => (0 <= k)%Z /\ (0 <= sc)%Z /\
      exists q s tape, halts_at T initial (Z.to_nat k) q s true tape /\ score tape (Z.to_nat sc)
  | AUndefined q s k sc => (0 <= k)%Z /\ (0 <= sc)%Z /\
      exists tape, halts_at T initial (Z.to_nat k) q s false tape /\ score tape (Z.to_nat sc)
  | AInfinite reason b => (reason <> INF_MACRO_STEP \/ trusted -> nonhalting T initial) /\
      (reason <> INF_MACRO_STEP -> quasi_true T b)
  | AGaveUp | AUnexpected => True
  end.
(** no block can be abandoned: without backsymbol layer, or with a block size that is given and small (see C55) *)
Definition quick_covered (n m : nat) (o : options) : Prop :=
  o_backsymbol o = false \/
  (o_block_size o <> 0 /\ 384 <= o_block_limit o /\ 3 * (n * 2 * o_block_size o * m ^ o_block_size o) <= o_block_limit o).

(** ** lemmas *)
Lemma quiet_nodup {Sym St P} (M : machine Sym St) lap ml fuel : forall total (p : P) s p' s',
  quiet_loop M lap fuel ml total (p, s) = Some (p', s') -> nodup_seen s -> nodup_seen s'.
Proof.
  induction fuel as [|fuel IH]; intros total p s p' s'; cbn [quiet_loop]; destruct (_ && _); try discriminate;
    try (intros Q; injection Q as <- <-; auto).
  destruct (sim_step zops M lap (p, s)) as [[p1 s1]|] eqn:E; [|discriminate]. intros Q H.
  eapply IH; [exact Q|]. eapply step_nodup; eauto.
Qed.
Lemma print_nodup {Sym St P} (M : machine Sym St) lap freeze ml pl fuel : forall total (p : P) s p' s',
  print_loop M lap freeze fuel ml pl total (p, s) = Some (p', s') -> nodup_seen s -> nodup_seen s'.
Proof.
  induction fuel as [|fuel IH]; intros total p s p' s'; cbn [print_loop]; destruct (_ && _); try discriminate;
    try (intros Q; injection Q as <- <-; auto).
  destruct (loop_seek zops M lap _ (p, s)) as [[p1 s1]|] eqn:E; [|discriminate]. destruct (freeze p1) as [p2|]; [|discriminate]. intros Q H.
  eapply IH; [exact Q|]. eapply (drive_nodup M lap (LoopSeek _)); eauto.
Qed.

Lemma answer_of_true Gd T r a : report_ok Gd T r -> nodup_report r -> answer_of r = Some a -> answer_true Gd T a.
Proof.
  unfold report_ok, answer_of. intros H ND. destruct (r_op r) eqn:Eo; try (intros E; injection E as <-; exact I).
  - destruct H as (q & s & ds & tape & D & S1 & S2 & Hh & Sc & _). intros E. injection E as <-. cbn. eauto 8.
  - assert (H' := H). destruct H as (reason & states & Hi & NH & _). rewrite Hi. intros E. injection E as <-. cbn. split.
    + intros [N|G]; apply NH; [congruence|auto].
    + intros N. eapply (report_quasi_ok T r Gd); eauto. unfold report_ok. rewrite Eo. exact H'.
  - destruct H as (q & s & ds & tape & D & S1 & S2 & Hh & Sc & _). rewrite D. intros E. injection E as <-. cbn. eauto 8.
Qed.
Lemma answer_of_total Gd T r : report_ok Gd T r -> exists a, answer_of r = Some a.
Proof.
  unfold report_ok, answer_of. destruct (r_op r); eauto.
  - intros (reason & st & -> & _). eauto.
  - intros (q & s & ds & tape & -> & _). eauto.
Qed.
Lemma answer_unexpected r : answer_of r = Some AUnexpected -> r_op r = RUNNING.
Proof.
  unfold answer_of. destruct (r_op r); try congruence; [destruct (r_inf r) as [[? ?]|]|destruct (r_details r) as [|[] ?]]; discriminate.
Qed.

(** the bound on the loops *)
Definition loops_bound (o : quick_options) (a : answer) (loops : nat) : Prop :=
  let ml := o_max_loops (q_options o) in
  (a = AUnexpected -> ml <> 0 /\ ml <= loops) /\
  (ml <> 0 -> if q_quiet o then loops <= ml else rounded ml (print_loops_of o) loops).

Section Any.
  Context {Sym St P : Type} (Gd : Prop) (T : table) (M : machine Sym St) (Rp : dcfg Sym St -> config -> Prop) (halted : St -> Prop).
  Hypothesis MS : msound Gd T M Rp halted.
  Hypothesis SW : seen_wf M Rp.
  Variable lap : P -> ctape Z Sym -> St -> nat -> option (P * prover_result Z Sym).
  Variable Pok : P -> Prop.
  Hypothesis PO : prover_ok T M Rp lap Pok.
  Variable freeze : P -> option P.
  Hypothesis FO : forall p p', Pok p -> freeze p = Some p' -> Pok p'.
  Variable p0 : P.
  Hypothesis P0 : Pok p0.

  Lemma quick_loops_ok o fuel p s : quick_loops M o fuel lap freeze p0 = Some (p, s) ->
    sim_ok Gd T M Rp s /\ nodup_seen s /\ (s_op s = RUNNING -> o_max_loops (q_options o) <> 0 /\ o_max_loops (q_options o) <= s_loops s) /\
    (o_max_loops (q_options o) <> 0 -> if q_quiet o then s_loops s <= o_max_loops (q_options o) else rounded (o_max_loops (q_options o)) (print_loops_of o) (s_loops s)).
  Proof.
    unfold quick_loops. pose proof (sim_init_ok Gd T M Rp halted MS) as S0. destruct (q_quiet o).
    - intros E. change 0 with (s_loops (sim_init zops M)) in E at 1.
      destruct (quiet_ok Gd T M Rp halted MS SW lap Pok PO _ _ _ _ _ _ P0 S0 E) as (_ & A & _ & B & C).
      split; [exact A|]. split; [eapply quiet_nodup; [exact E|constructor]|]. split; [exact B|]. intros H. apply C; [exact H|cbn; lia].
    - intros E.
      assert (FO' : forall p p', Pok p -> (if q_freeze o then freeze else Some) p = Some p' -> Pok p').
      { intros p1 p2 H1. destruct (q_freeze o); [now apply FO|congruence]. }
      destruct (print_ok Gd T M Rp halted MS SW lap Pok PO _ FO' _ _ _ _ _ _ _ 0 0 P0 S0 (fun _ => eq_refl) E) as (_ & A & B & C).
      split; [exact A|]. split; [eapply print_nodup; [exact E|constructor]|]. split; [exact B|]. intros H. apply C; [exact H|reflexivity|cbn; lia|auto].
  Qed.
  Lemma quick_result_ok o fuel rules a l rs : quick_result M rules (quick_loops M o fuel lap freeze p0) = Some (a, l, rs) ->
    answer_true Gd T a /\ loops_bound o a l.
  Proof.
    unfold quick_result. destruct (quick_loops _ _ _ _ _ _) as [[p s]|] eqn:E; [|discriminate].
    destruct (quick_loops_ok _ _ _ _ E) as (A & B & C & D).
    destruct (answer_of _) as [a'|] eqn:Ea; [|discriminate]. intros Q. injection Q as <- <- _. split.
    - eapply answer_of_true; [eapply sim_report_ok; eauto|exact B|exact Ea].
    - split; [|exact D]. intros ->. apply C. exact (answer_unexpected _ Ea).
  Qed.

  (** with enough fuel *)
  Lemma quick_result_total o rules : (q_freeze o = true -> q_quiet o = false -> forall p, exists p', freeze p = Some p') ->
    (q_quiet o = false -> 0 < q_print_loops o) -> forall fuel,
    o_max_loops (q_options o) <> 0 /\ o_max_loops (q_options o) <= fuel \/ (exists t, steps T t initial = None /\ t <= fuel) ->
    exists x, quick_result M rules (quick_loops M o fuel lap freeze p0) = Some x.
  Proof.
    intros HF HP fuel HB. pose proof (sim_init_ok Gd T M Rp halted MS) as S0.
    assert (BB : exists bound : option nat, (forall B, bound = Some B -> forall s, sim_ok Gd T M Rp s -> s_op s = RUNNING -> (0 <= s_steps s < Z.of_nat B)%Z) /\
                                            budget bound (o_max_loops (q_options o)) (sim_init zops M) fuel).
    { destruct HB as [[H1 H2]|(t & H1 & H2)].
      - exists None. split; [discriminate|]. left. split; [exact H1|cbn; lia].
      - exists (Some t). split.
        + intros B Q s Hs R. injection Q as <-. unfold sim_ok in Hs. rewrite R in Hs.
          destruct Hs as (_ & _ & Hn & (c & Ec & _) & _). split; [exact Hn|].
          destruct (Z.lt_ge_cases (s_steps s) (Z.of_nat t)) as [|G]; [assumption|]. exfalso.
          replace (Z.to_nat (s_steps s)) with (t + (Z.to_nat (s_steps s) - t)) in Ec by lia.
          rewrite steps_add, H1 in Ec. discriminate.
        + right. exists t. split; [reflexivity|]. cbn. lia. }
    destruct BB as (bd & B1 & B2).
    assert (X : exists ps, quick_loops M o fuel lap freeze p0 = Some ps).
    { unfold quick_loops. destruct (q_quiet o).
      - apply (quiet_total Gd T M Rp halted MS SW lap Pok PO bd B1 (o_max_loops (q_options o)) fuel p0 (sim_init zops M) P0 S0). now right.
      - assert (FO' : forall p p', Pok p -> (if q_freeze o then freeze else Some) p = Some p' -> Pok p').
        { intros p1 p2 H1. destruct (q_freeze o); [now apply FO|congruence]. }
        assert (FT' : forall p, exists p', (if q_freeze o then freeze else Some) p = Some p').
        { intros p1. destruct (q_freeze o); [now apply HF|eauto]. }
        eapply (print_total Gd T M Rp halted MS SW lap Pok PO _ FO' FT' bd B1 (o_max_loops (q_options o)) (print_loops_of o) fuel); auto.
        unfold print_loops_of. destruct (Nat.eqb_spec (o_max_loops (q_options o)) 0); cbn [negb andb]; [now apply HP|].
        destruct (_ <? _); [lia|now apply HP]. }
    destruct X as ([p s] & E). unfold quick_result. rewrite E.
    destruct (quick_loops_ok _ _ _ _ E) as (A & _).
    destruct (answer_of_total Gd T _ (sim_report_ok Gd T M Rp halted MS SW s A)) as (a & ->). cbn. eauto.
  Qed.
End Any.

Lemma frozen_keeps {P} (Pok : P -> Prop) (p p' : bool * P) : Pok (snd p) -> Some (true, snd p) = Some p' -> Pok (snd p').
Proof. intros H E. injection E as <-. exact H. Qed.

Lemma quick_machine_true Gd order next tab g o fuel a l rs :
  (forall A l, incl (order A l) l) -> with_machine tab g (sound_machine Gd (table_of tab)) ->
  (o_prover (q_options o) = Plain \/ o_prover (q_options o) = Limited -> 0 < o_max_reps (q_options o)) ->
  quick_machine order next tab g o fuel = Some (a, l, rs) ->
  (o_prover (q_options o) = Recursive -> forallb trusted_rule rs = true) ->
  answer_true Gd (table_of tab) a /\ loops_bound o a l.
Proof.
  intros Ho HM Hr. unfold quick_machine.
  apply (with_machine_prop tab g _ _ (fun x => x = Some (a, l, rs) -> (o_prover (q_options o) = Recursive -> forallb trusted_rule rs = true) ->
                                               answer_true Gd (table_of tab) a /\ loops_bound o a l) HM).
  intros Sym St M (Rp & halted & MS & SW & PU) E Tr.
  destruct (o_prover (q_options o)) eqn:Eo.
  - eapply (quick_result_ok Gd (table_of tab) M Rp halted MS SW no_prover (fun _ => True) (no_prover_ok (table_of tab) M Rp)); [|exact I|exact E]. auto.
  - eapply (quick_result_ok Gd (table_of tab) M Rp halted MS SW _ (fun p => rules_ok (table_of tab) M Rp (snd p))); [| | |exact E].
    + apply freezable_ok; [eapply lap_ok|eapply frozen_plain_ok]; eauto.
    + apply frozen_keeps.
    + intros k r [].
  - eapply (quick_result_ok Gd (table_of tab) M Rp halted MS SW _ (fun p => lrules_ok (table_of tab) M Rp (snd p))); [| | |exact E].
    + apply freezable_ok; [eapply lap_lim_ok|eapply frozen_lim_ok]; eauto.
    + apply frozen_keeps.
    + intros kl kr r [].
  - specialize (Tr eq_refl).
    set (lap1 := freezable (log_and_apply_r M (o_max_configs (q_options o)) (o_max_reps (q_options o))) (frozen_rec M (o_max_configs (q_options o)) (o_max_reps (q_options o)))) in *.
    set (lap2 := freezable (lap_total M (o_max_configs (q_options o)) (o_max_reps (q_options o))) (frozen_total M (o_max_configs (q_options o)) (o_max_reps (q_options o)))).
    assert (E2 : quick_result M (fun p => map snd (rp_rules (snd p))) (quick_loops M o fuel lap2 (fun p => Some (true, snd p)) (false, rprover_init next)) = Some (a, l, rs)).
    { unfold quick_result in *. destruct (quick_loops M o fuel lap1 _ _) as [[p s]|] eqn:E1; [|discriminate].
      assert (Hq : rp_trusted (snd p) = true).
      { destruct (answer_of _); [|discriminate]. injection E as _ _ <-. exact Tr. }
      enough (quick_loops M o fuel lap2 (fun p => Some (true, snd p)) (false, rprover_init next) = Some (p, s)) as -> by exact E.
      unfold quick_loops in *. destruct (q_quiet o).
      - apply (same_quiet M lap1 lap2 (fun p => rp_trusted (snd p) = true)) with (2 := E1); [intros; eapply rec_same; eauto|exact Hq].
      - apply (same_print M lap1 lap2 (fun p => rp_trusted (snd p) = true)) with (3 := E1); [intros; eapply rec_same; eauto| |exact Hq].
        intros p1 p2. destruct (q_freeze o); intros Q; injection Q as <-; auto. }
    eapply (quick_result_ok Gd (table_of tab) M Rp halted MS SW lap2 (fun p => rp_ok (table_of tab) M Rp (snd p))); [| | |exact E2].
    + apply freezable_ok; [eapply lap_total_ok|eapply frozen_total_ok]; eauto.
    + apply frozen_keeps.
    + intros k r [].
Qed.

Lemma quick_machine_total order next tab g o fuel n m :
  (forall A l, incl (order A l) l) -> wf_ttable n m tab -> valid_setting g = true ->
  o_prover (q_options o) <> Recursive ->
  (o_prover (q_options o) <> NoProver -> 0 < o_max_reps (q_options o)) ->
  (o_prover (q_options o) = NoProver -> q_quiet o = false -> q_freeze o = false) ->
  (q_quiet o = false -> 0 < q_print_loops o) ->
  o_max_loops (q_options o) <> 0 /\ o_max_loops (q_options o) <= fuel \/ (exists t, steps (table_of tab) t initial = None /\ t <= fuel) ->
  exists x, quick_machine order next tab g o fuel = Some x.
Proof.
  intros Ho W V NR Hr NF HP HB. unfold quick_machine.
  apply (with_machine_prop tab g _ _ (fun x => exists y, x = Some y) (setting_exact n m tab g W V)).
  intros Sym St M (Rp & halted & MS & SW & PU).
  destruct (o_prover (q_options o)) eqn:Eo; [| | |contradiction].
  - eapply (quick_result_total False (table_of tab) M Rp halted MS SW no_prover (fun _ => True) (no_prover_ok (table_of tab) M Rp)); auto.
    intros F Q. rewrite (NF eq_refl Q) in F. discriminate.
  - eapply (quick_result_total False (table_of tab) M Rp halted MS SW _ (fun p => rules_ok (table_of tab) M Rp (snd p))); auto.
    + apply freezable_ok; [eapply lap_ok|eapply frozen_plain_ok]; eauto; apply Hr; discriminate.
    + apply frozen_keeps.
    + intros k r [].
    + eauto.
  - eapply (quick_result_total False (table_of tab) M Rp halted MS SW _ (fun p => lrules_ok (table_of tab) M Rp (snd p))); auto.
    + apply freezable_ok; [eapply lap_lim_ok|eapply frozen_lim_ok]; eauto; apply Hr; discriminate.
    + apply frozen_keeps.
    + intros kl kr r [].
    + eauto.
Qed.


Lemma covered_trusted n m o k : 0 < k -> (o_block_size o <> 0 -> k = o_block_size o) -> quick_covered n m o ->
  repeat_trusted n m (stack o k (o_backsymbol o)).
Proof.
  intros K1 K2 [Hb|(H0 & H1 & H2)]; unfold stack, ctl_setting; [rewrite Hb; now destruct (k =? 1)|].
  rewrite (K2 H0) in *. destruct (o_block_size o =? 1); destruct (o_backsymbol o); try exact I. cbn [repeat_trusted].
  unfold enough_loops, window_configs. lia.
Qed.

(** the block size *)
Lemma quick_block faster tab o bd kd fuel k :
  (if o_block_size (q_options o) =? 0
   then block_finder faster tab bd kd fuel (q_bf_loops o) (o_block_mult (q_options o)) (o_max_block_mult (q_options o)) 0
   else Some (o_block_size (q_options o))) = Some k ->
  0 < k /\ (o_block_size (q_options o) <> 0 -> k = o_block_size (q_options o)).
Proof.
  destruct (Nat.eqb_spec (o_block_size (q_options o)) 0) as [E0|E0]; intros E.
  - apply block_finder_pos in E as [K1 K2]. split; [exact K1|contradiction].
  - injection E as <-. split; [lia|auto].
Qed.

(** ** The theorems *)

(** What is printed is true, whatever the options: with [--print-loops], [--freeze-prover], [--quiet], the
    block size given or found, every prover.  Missing: a repeat inside a macro step where a block may be
    abandoned; [--recursive] with untrusted rules.  Both fail, see below. *)
Theorem C65_answer_true_partial :
  forall faster order next bd kd n m tab o fuel a loops rules,
  wf_ttable n m tab -> (forall A l, incl (order A l) l) ->
  (o_prover (q_options o) = Plain \/ o_prover (q_options o) = Limited -> 0 < o_max_reps (q_options o)) ->
  (o_prover (q_options o) = Recursive -> forallb trusted_rule rules = true) ->
  quick_sim faster order next bd kd tab o fuel = Some (a, loops, rules) ->
  answer_true (quick_covered n m (q_options o)) (table_of tab) a.
Proof.
  intros faster order next bd kd n m tab o fuel a loops rules W Ho Hr Tr. unfold quick_sim.
  match goal with |- match ?b with _ => _ end = _ -> _ => destruct b as [k|] eqn:Ek end; [|discriminate].
  apply quick_block in Ek as [K1 K2]. intros E.
  assert (V : valid_setting (stack (q_options o) k (o_backsymbol (q_options o))) = true) by (apply ctl_setting_valid; right; exact K1).
  destruct (quick_machine_true False order next tab _ o fuel a loops rules Ho (setting_exact n m tab _ W V) Hr E Tr) as [A _].
  assert (B : quick_covered n m (q_options o) -> answer_true True (table_of tab) a).
  { intros G. refine (proj1 (quick_machine_true True order next tab _ o fuel a loops rules Ho (setting_trusted n m tab _ W V _) Hr E Tr)).
    now apply covered_trusted. }
  destruct a; cbn [answer_true] in *; auto. split; [|apply A]. intros [N|G]; [apply A; auto|apply (B G); auto].
Qed.

(** The number of loops: without a limit the program does not stop before there is an answer ("SHOULDN'T
    HAPPEN" is printed at a limit only); with [--quiet] the limit is met; when lines are printed, it is
    rounded up to a multiple of the number of loops between two lines, but not if that is the larger one. *)
Theorem C65_loops :
  forall faster order next bd kd n m tab o fuel a loops rules,
  wf_ttable n m tab -> (forall A l, incl (order A l) l) ->
  (o_prover (q_options o) = Plain \/ o_prover (q_options o) = Limited -> 0 < o_max_reps (q_options o)) ->
  (o_prover (q_options o) = Recursive -> forallb trusted_rule rules = true) ->
  quick_sim faster order next bd kd tab o fuel = Some (a, loops, rules) ->
  (a = AUnexpected -> o_max_loops (q_options o) <> 0 /\ o_max_loops (q_options o) <= loops) /\
  (o_max_loops (q_options o) <> 0 -> q_quiet o = true -> loops <= o_max_loops (q_options o)) /\
  (o_max_loops (q_options o) <> 0 -> o_max_loops (q_options o) <= q_print_loops o -> loops <= o_max_loops (q_options o)) /\
  (o_max_loops (q_options o) <> 0 -> q_quiet o = false -> exists k, loops <= k * q_print_loops o /\ (k = 0 \/ (k - 1) * q_print_loops o < o_max_loops (q_options o))).
Proof.
  intros faster order next bd kd n m tab o fuel a loops rules W Ho Hr Tr. unfold quick_sim.
  match goal with |- match ?b with _ => _ end = _ -> _ => destruct b as [k|] eqn:Ek end; [|discriminate].
  apply quick_block in Ek as [K1 K2]. intros E.
  assert (V : valid_setting (stack (q_options o) k (o_backsymbol (q_options o))) = true) by (apply ctl_setting_valid; right; exact K1).
  destruct (quick_machine_true False order next tab _ o fuel a loops rules Ho (setting_exact n m tab _ W V) Hr E Tr) as [_ [A B]].
  split; [exact A|]. split.
  - intros H Q. rewrite Q in B. now apply B.
  - assert (L : o_max_loops (q_options o) <> 0 -> o_max_loops (q_options o) <= q_print_loops o -> loops <= o_max_loops (q_options o)).
    { intros H HL. specialize (B H). destruct (q_quiet o); [exact B|].
      replace (print_loops_of o) with (o_max_loops (q_options o)) in B.
      - destruct B as (k1 & B1 & B2). assert (k1 <= 1) by (destruct B2; nia). nia.
      - unfold print_loops_of. rewrite (proj2 (Nat.eqb_neq _ _) H). cbn [negb andb]. destruct (Nat.ltb_spec (o_max_loops (q_options o)) (q_print_loops o)); [reflexivity|lia]. }
    split; [exact L|]. intros H NQ. destruct (le_lt_dec (o_max_loops (q_options o)) (q_print_loops o)) as [HL|HL].
    + exists 1. specialize (L H HL). split; lia.
    + specialize (B H). rewrite NQ in B. unfold print_loops_of in B. rewrite (proj2 (Nat.ltb_ge _ _)) in B by lia. rewrite andb_false_r in B. exact B.
Qed.

(** There is an answer - no exception, no endless loop - if there is a limit or the machine halts. *)
Theorem C65_answers :
  forall faster order next bd kd n m tab o,
  wf_ttable n m tab -> (forall A l, incl (order A l) l) ->
  o_prover (q_options o) <> Recursive ->
  (o_prover (q_options o) <> NoProver -> 0 < o_max_reps (q_options o)) ->
  (o_prover (q_options o) = NoProver -> q_quiet o = false -> q_freeze o = false) ->
  (q_quiet o = false -> 0 < q_print_loops o) ->
  o_max_loops (q_options o) <> 0 \/ (exists t, steps (table_of tab) t initial = None) ->
  exists needed, forall fuel, needed <= fuel ->
  exists a loops rules, quick_sim faster order next bd kd tab o fuel = Some (a, loops, rules).
Proof.
  intros faster order next bd kd n m tab o W Ho NR Hr NF HP HB.
  assert (N : exists N, forall fuel, N <= fuel -> o_max_loops (q_options o) <> 0 /\ o_max_loops (q_options o) <= fuel \/
                                                  (exists t, steps (table_of tab) t initial = None /\ t <= fuel)).
  { destruct HB as [H|(t & H)]; [exists (o_max_loops (q_options o))|exists t]; eauto. }
  destruct N as (N & HN). exists (S (S bd) + N). intros fuel F. unfold quick_sim.
  match goal with |- context [match ?b with _ => _ end] => destruct b as [k|] eqn:Ek end.
  - apply quick_block in Ek as [K1 K2].
    destruct (quick_machine_total order next tab (stack (q_options o) k (o_backsymbol (q_options o))) o fuel n m Ho W
                ltac:(apply ctl_setting_valid; right; exact K1) NR Hr NF HP (HN fuel ltac:(lia))) as ([[a l] rs] & E). eauto.
  - exfalso. destruct (o_block_size (q_options o) =? 0); [|discriminate].
    destruct (block_finder_total n m tab W faster bd kd fuel (q_bf_loops o) (o_block_mult (q_options o)) (o_max_block_mult (q_options o)) 0 ltac:(lia)) as (k & E).
    congruence.
Qed.

(** the steps of a machine that halts *)
Lemma halting_steps T t q s b tape u q' s' b' tape' : halts_at T initial t q s b tape -> halts_at T initial u q' s' b' tape' ->
  t = u /\ q = q' /\ s = s' /\ b = b'.
Proof.
  intros (i & c & w & d & -> & R1 & -> & -> & E1 & _) (j & c' & w' & d' & -> & R2 & -> & -> & E2 & _).
  assert (X : forall i j c c' w d b, steps T i initial = Some c -> steps T j initial = Some c' -> T (st c) (tp c (hd c)) = Stop w d b -> j <= i).
  { clear. intros i j c c' w d b R1 R2 E. destruct (Nat.le_gt_cases j i) as [|G]; [assumption|]. exfalso.
    replace j with (i + S (j - i - 1)) in R2 by lia. rewrite steps_add, R1 in R2. cbn [steps] in R2. unfold step in R2. now rewrite E in R2. }
  assert (i = j) as <- by (pose proof (X _ _ _ _ _ _ _ R1 R2 E1); pose proof (X _ _ _ _ _ _ _ R2 R1 E2); lia).
  assert (c = c') as <- by congruence. rewrite E1 in E2. injection E2 as <- <- <-. auto.
Qed.

(** A machine that halts is found out: without a limit, the number of steps is printed, or that the
    simulator gave up (which happens in macro machines only). *)
Theorem C65_finds_halt :
  forall faster order next bd kd n m tab o t q s explicit tape,
  wf_ttable n m tab -> (forall A l, incl (order A l) l) ->
  o_prover (q_options o) <> Recursive ->
  (o_prover (q_options o) <> NoProver -> 0 < o_max_reps (q_options o)) ->
  (o_prover (q_options o) = NoProver -> q_quiet o = false -> q_freeze o = false) ->
  (q_quiet o = false -> 0 < q_print_loops o) ->
  o_max_loops (q_options o) = 0 -> quick_covered n m (q_options o) ->
  halts_at (table_of tab) initial t q s explicit tape ->
  exists needed, forall fuel, needed <= fuel ->
  exists a loops rules, quick_sim faster order next bd kd tab o fuel = Some (a, loops, rules) /\
    (a = AGaveUp \/ exists nonzeros, score tape (Z.to_nat nonzeros) /\
       a = if explicit then AHalted (Z.of_nat t) nonzeros else AUndefined q s (Z.of_nat t) nonzeros).
Proof.
  intros faster order next bd kd n m tab o t q s b tape W Ho NR Hr NF HP HM HC Hh.
  assert (St : steps (table_of tab) t initial = None).
  { destruct Hh as (i & c & w & d & -> & R1 & -> & -> & E1 & _). rewrite <- Nat.add_1_r, steps_add, R1. cbn [steps]. unfold step. now rewrite E1. }
  destruct (C65_answers faster order next bd kd n m tab o W Ho NR Hr NF HP ltac:(eauto)) as (N & H).
  exists N. intros fuel F. destruct (H fuel F) as (a & l & rs & E). exists a, l, rs. split; [exact E|].
  assert (Hr' : o_prover (q_options o) = Plain \/ o_prover (q_options o) = Limited -> 0 < o_max_reps (q_options o)) by (intros [Q|Q]; apply Hr; congruence).
  pose proof (C65_answer_true_partial faster order next bd kd n m tab o fuel a l rs W Ho Hr' ltac:(congruence) E) as A.
  destruct (C65_loops faster order next bd kd n m tab o fuel a l rs W Ho Hr' ltac:(congruence) E) as (L & _).
  assert (SC : forall q' s' tp', halts_at (table_of tab) initial t q' s' b tp' -> forall z, score tp' z -> score tape z).
  { intros q' s' tp' H' z (ls & N1 & N2 & N3). exists ls. split; [exact N1|]. split; [|exact N3]. intros x. rewrite N2.
    destruct Hh as (i & c & w & d & -> & R1 & -> & -> & E1 & T1). destruct H' as (j & c' & w' & d' & Ej & R2 & -> & -> & E2 & T2).
    injection Ej as <-. assert (c = c') as <- by congruence. rewrite E1 in E2. injection E2 as <- <-. rewrite T1, T2. reflexivity. }
  destruct a as [k sc|q' s' k sc|reason x| |]; cbn [answer_true] in A.
  - right. destruct A as (A1 & A2 & q' & s' & tp' & A3 & A4). destruct (halting_steps _ _ _ _ _ _ _ _ _ _ _ Hh A3) as (-> & _ & _ & ->).
    exists sc. rewrite Z2Nat.id by exact A1. split; [eapply SC; eauto|reflexivity].
  - right. destruct A as (A1 & A2 & tp' & A3 & A4). destruct (halting_steps _ _ _ _ _ _ _ _ _ _ _ Hh A3) as (-> & -> & -> & ->).
    exists sc. rewrite Z2Nat.id by exact A1. split; [eapply SC; eauto|reflexivity].
  - exfalso. destruct A as [A _]. apply (A (or_intror HC) t St).
  - auto.
  - exfalso. now destruct (L eq_refl).
Qed.

(** More time does not change the answer. *)
Lemma quiet_mono {Sym St P} (M : machine Sym St) (lap : P -> _) ml fuel : forall total ps x, quiet_loop M lap fuel ml total ps = Some x ->
  forall fuel', fuel <= fuel' -> quiet_loop M lap fuel' ml total ps = Some x.
Proof.
  induction fuel as [|fuel IH]; intros total ps x E fuel' F; cbn [quiet_loop] in E.
  - destruct fuel'; cbn [quiet_loop]; destruct (_ && _); try discriminate; exact E.
  - destruct fuel' as [|fuel']; [lia|]. cbn [quiet_loop]. destruct (_ && _); [|exact E].
    destruct (sim_step zops M lap ps); [|discriminate]. eapply IH; [exact E|lia].
Qed.
Lemma print_mono {Sym St P} (M : machine Sym St) (lap : P -> _) freeze ml pl fuel : forall total ps x, print_loop M lap freeze fuel ml pl total ps = Some x ->
  forall fuel', fuel <= fuel' -> print_loop M lap freeze fuel' ml pl total ps = Some x.
Proof.
  induction fuel as [|fuel IH]; intros total ps x E fuel' F; cbn [print_loop] in E.
  - destruct fuel'; cbn [print_loop]; destruct (_ && _); try discriminate; exact E.
  - destruct fuel' as [|fuel']; [lia|]. cbn [print_loop]. destruct (_ && _); [|exact E].
    destruct (loop_seek zops M lap _ ps) as [[p s]|]; [|discriminate]. destruct (freeze p); [|discriminate]. eapply IH; [exact E|lia].
Qed.
Lemma quick_result_impl {Sym St P} (M : machine Sym St) (rules : P -> list rrule) r1 r2 x : (forall y, r1 = Some y -> r2 = Some y) ->
  quick_result M rules r1 = Some x -> quick_result M rules r2 = Some x.
Proof. intros H. unfold quick_result. destruct r1 as [y|]; [|discriminate]. now rewrite (H y eq_refl). Qed.
Lemma quick_loops_mono {Sym St P} (M : machine Sym St) o fuel fuel' (lap : P -> _) freeze p y : fuel <= fuel' ->
  quick_loops M o fuel lap freeze p = Some y -> quick_loops M o fuel' lap freeze p = Some y.
Proof. intros F. unfold quick_loops. destruct (q_quiet o); intros E; [eapply quiet_mono|eapply print_mono]; eauto. Qed.
Theorem C65_fuel :
  forall faster order next bd kd tab o fuel fuel' x, fuel <= fuel' ->
  quick_sim faster order next bd kd tab o fuel = Some x -> quick_sim faster order next bd kd tab o fuel' = Some x.
Proof.
  intros faster order next bd kd tab o fuel fuel' x F. unfold quick_sim.
  match goal with |- match ?b with _ => _ end = _ -> _ => destruct b as [k|] eqn:Ek end; [|discriminate].
  match goal with |- _ -> match ?b with _ => _ end = _ => replace b with (Some k) end.
  2: { destruct (_ =? 0); [|exact (eq_sym Ek)]. symmetry. eapply block_finder_mono; eauto. }
  unfold quick_machine. intros E.
  assert (X : forall Sym St (M : machine Sym St) P rules (lap : P -> _) freeze p,
    quick_result M rules (quick_loops M o fuel lap freeze p) = Some x -> quick_result M rules (quick_loops M o fuel' lap freeze p) = Some x).
  { intros. eapply quick_result_impl; [|eassumption]. intros y. now apply quick_loops_mono. }
  destruct (stack _ _ _); cbn [with_machine] in *; destruct (o_prover (q_options o)); apply X; exact E.
Qed.

(** The lines that are printed do not change the run: without a limit and without [--freeze-prover] the
    answer, the number of loops and the proven rules are those of [--quiet]. *)
Theorem C65_same_answer :
  forall faster order next bd kd tab o o' fuel fuel' x y,
  q_options o' = q_options o -> q_bf_loops o' = q_bf_loops o -> o_max_loops (q_options o) = 0 ->
  q_quiet o = true -> q_quiet o' = false -> q_freeze o' = false ->
  quick_sim faster order next bd kd tab o fuel = Some x ->
  quick_sim faster order next bd kd tab o' fuel' = Some y -> x = y.
Proof.
  intros faster order next bd kd tab o o' fuel fuel' x y Eo Eb Em Eq Eq' Ef E1 E2.
  apply (C65_fuel faster order next bd kd tab o fuel (fuel + fuel') x ltac:(lia)) in E1.
  apply (C65_fuel faster order next bd kd tab o' fuel' (fuel + fuel') y ltac:(lia)) in E2. revert E1 E2.
  unfold quick_sim. rewrite Eo, Eb.
  match goal with |- match ?b with _ => _ end = _ -> _ => destruct b as [k|] end; [|discriminate].
  assert (X : forall Sym St (M : machine Sym St) P rules (lap : P -> _) freeze p f1 f2,
    quick_result M rules (quick_loops M o f1 lap freeze p) = Some x -> quick_result M rules (quick_loops M o' f2 lap freeze p) = Some y -> x = y).
  { intros Sym St M P rules lap freeze p f1 f2. unfold quick_loops. rewrite Eq, Eq', Ef, Eo, Em. unfold quick_result.
    destruct (quiet_loop _ _ _ _ _ _) as [ps1|] eqn:A1; [|discriminate]. destruct (print_loop _ _ _ _ _ _ _ _) as [ps2|] eqn:A2; [|discriminate].
    destruct (quiet_iter _ _ _ _ _ _ A1) as (k1 & B1 & C1). destruct (print_iter _ _ _ _ _ _ _ A2) as (k2 & B2 & C2).
    rewrite (iter_ends M lap k1 k2 _ _ _ B1 B2 C1 C2). congruence. }
  unfold quick_machine. rewrite Eo. intros E1 E2.
  destruct (stack _ _ _); cbn [with_machine] in *; destruct (o_prover (q_options o)); eapply X; eassumption.
Qed.

(** ** Examples *)
Definition quick (quiet freeze : bool) (print loops k : nat) (back : bool) (p : prover_kind) : quick_options :=
  {| q_quiet := quiet; q_print_loops := print; q_freeze := freeze; q_bf_loops := 100; q_options := but true 127 k back true loops p |}.
Notation quick_run tab o := (quick_sim twice (fun _ l => l) 0 (Z.to_nat 10000) (Z.to_nat 1000) tab o (Z.to_nat 20000)).

(** The fifth busy beaver, with and without lines printed, and with the prover frozen after the first line *)
Example quick_bb5 : quick_run bb5 (quick true false 0 0 0 true Plain) = Some (AHalted 47176870 4098, 334, []).
Proof. vm_cast_no_check (@eq_refl (option (answer * nat * list rrule)) (Some (AHalted 47176870 4098, 334, []))). Qed.
Example quick_bb5_lines : quick_run bb5 (quick false false 7 0 0 true Plain) = Some (AHalted 47176870 4098, 334, []).
Proof. vm_cast_no_check (@eq_refl (option (answer * nat * list rrule)) (Some (AHalted 47176870 4098, 334, []))). Qed.
Example quick_bb5_frozen : quick_run bb5 (quick false true 100 0 0 true Limited) = Some (AHalted 47176870 4098, 334, []).
Proof. vm_cast_no_check (@eq_refl (option (answer * nat * list rrule)) (Some (AHalted 47176870 4098, 334, []))). Qed.
Example quick_bouncer : quick_run bouncer (quick false false 3 0 1 false Plain) = Some (AInfinite INF_PROOF_SYSTEM QNot, 12, []).
Proof. vm_cast_no_check (@eq_refl (option (answer * nat * list rrule)) (Some (AInfinite INF_PROOF_SYSTEM QNot, 12, []))). Qed.
(** the hypotheses of the theorems hold *)
Example quick_bb5_true : answer_true (quick_covered 5 2 (but true 127 0 true true 0 Limited)) (table_of bb5) (AHalted 47176870 4098).
Proof.
  eapply (C65_answer_true_partial twice (fun _ l => l) 0 _ _ 5 2 bb5 (quick false true 100 0 0 true Limited) _ _ _ _ bb5_wf (fun _ l => incl_refl l));
    [cbn; lia|discriminate|exact quick_bb5_frozen].
Qed.
Example quick_covered_example : quick_covered 5 2 (but true 127 3 true true 0 Plain).
Proof. right. split; [discriminate|]. cbn [q_options o_block_limit o_block_size but quick]. split; apply Nat.leb_le; vm_compute; reflexivity. Qed.
(** C65_finds_halt on bb5 with blocks of 3 cells *)
Example quick_bb5_found : exists t q s explicit tape, halts_at (table_of bb5) initial t q s explicit tape /\
  exists needed, forall fuel, needed <= fuel ->
  exists a loops rules, quick_sim twice (fun _ l => l) 0 (Z.to_nat 10000) (Z.to_nat 1000) bb5 (quick false true 100 0 3 true Plain) fuel = Some (a, loops, rules) /\
    (a = AGaveUp \/ exists nonzeros, score tape (Z.to_nat nonzeros) /\
       a = if explicit then AHalted (Z.of_nat t) nonzeros else AUndefined q s (Z.of_nat t) nonzeros).
Proof.
  destruct bb5_halts as (e & tape & H & _). do 5 eexists. split; [exact H|].
  eapply C65_finds_halt; [exact bb5_wf|exact (fun _ l => incl_refl l)|discriminate|intros _; cbn; lia|discriminate|intros _; cbn; lia|reflexivity| |exact H].
  exact quick_covered_example.
Qed.

(** ** What is not so *)

(** [--max-loops=5 --print-loops=3] makes 6 loops. *)
Theorem C65_max_loops_refuted :
  quick_run bouncer (quick false false 3 5 1 false NoProver) = Some (AUnexpected, 6, []) /\
  quick_run bouncer (quick true false 3 5 1 false NoProver) = Some (AUnexpected, 5, []).
Proof. split; vm_compute; reflexivity. Qed.

(** [--freeze-prover] without a prover raises an exception after the first line, whatever the machine. *)
Theorem C65_freeze_refuted :
  forall faster order next bd kd tab o fuel, o_prover (q_options o) = NoProver -> q_quiet o = false -> q_freeze o = true ->
  quick_sim faster order next bd kd tab o fuel = None.
Proof.
  intros faster order next bd kd tab o fuel Ep Eq Ef. unfold quick_sim.
  match goal with |- match ?b with _ => _ end = _ => destruct b as [k|] end; [|reflexivity].
  unfold quick_machine. rewrite Ep.
  assert (X : forall Sym St (M : machine Sym St), quick_result M (fun _ => []) (quick_loops M o fuel no_prover (fun _ => None) tt) = None).
  { intros Sym St M. unfold quick_loops. rewrite Eq, Ef. unfold quick_result.
    enough (print_loop M no_prover (fun _ : unit => None) fuel (o_max_loops (q_options o)) (print_loops_of o) 0 (tt, sim_init zops M) = None) as -> by reflexivity.
    assert (Y : ((o_max_loops (q_options o) =? 0) || (0 <? o_max_loops (q_options o))) = true) by now destruct (o_max_loops (q_options o)).
    destruct fuel; cbn [print_loop]; change (s_op (snd (tt, sim_init zops M))) with RUNNING; cbn [cond_eqb andb]; rewrite Y; [reflexivity|].
    destruct (loop_seek _ _ _ _ _) as [[p s]|]; reflexivity. }
  destruct (stack _ _ _); apply X.
Qed.

(** [--print-loops=0] never ends, whatever the machine. *)
Theorem C65_print_loops_refuted :
  forall faster order next bd kd tab o fuel, q_print_loops o = 0 -> q_quiet o = false ->
  quick_sim faster order next bd kd tab o fuel = None.
Proof.
  intros faster order next bd kd tab o fuel Ep Eq. unfold quick_sim.
  match goal with |- match ?b with _ => _ end = _ => destruct b as [k|] end; [|reflexivity].
  assert (Z0 : print_loops_of o = 0).
  { unfold print_loops_of. rewrite Ep. destruct (o_max_loops (q_options o)); reflexivity. }
  assert (X : forall Sym St (M : machine Sym St) P rules (lap : P -> _) freeze p, quick_result M rules (quick_loops M o fuel lap freeze p) = None).
  { intros Sym St M P rules lap freeze p. unfold quick_loops. rewrite Eq, Z0. unfold quick_result.
    enough (print_loop M lap (if q_freeze o then freeze else Some) fuel (o_max_loops (q_options o)) 0 0 (p, sim_init zops M) = None) as -> by reflexivity.
    assert (Y : ((o_max_loops (q_options o) =? 0) || (0 <? o_max_loops (q_options o))) = true) by now destruct (o_max_loops (q_options o)).
    revert p. induction fuel as [|f IH]; intros p; cbn [print_loop]; change (s_op (snd (p, sim_init zops M))) with RUNNING; cbn [cond_eqb andb]; rewrite Y; [reflexivity|].
    change (s_loops (snd (p, sim_init zops M))) with 0. unfold loop_seek. cbn [snd plus Nat.sub loop_seek_loop].
    change (s_loops (sim_init zops M)) with 0. cbn [Nat.ltb Nat.leb Nat.sub loop_seek_loop snd andb].
    change (s_loops (sim_init zops M)) with 0. cbn [Nat.ltb Nat.leb andb].
    destruct ((if q_freeze o then freeze else Some) p); [apply IH|reflexivity]. }
  unfold quick_machine. destruct (stack _ _ _); cbn [with_machine]; destruct (o_prover (q_options o)); apply X.
Qed.

(** With [--block-size=2 --max-steps-in-block=3] a machine that halts after 134 steps is printed as proven infinite (C07). *)
Definition c07_tab : ttable := match tm_from_quintuples c07_rows 133 2 with Some t => t | None => [] end.
Theorem C65_abandoned_block_refuted :
  (exists b, quick_run c07_tab {| q_quiet := true; q_print_loops := 1; q_freeze := false; q_bf_loops := 100; q_options :=
     {| o_reverse := true; o_lin_steps := 127; o_lin_min := false; o_run_sim := true; o_block_size := 2; o_backsymbol := true;
        o_ctl := true; o_max_loops := 0; o_tape_limit := 50; o_block_mult := 0; o_max_block_mult := 2; o_max_block_size := 0;
        o_prover := Plain; o_max_configs := 100; o_max_reps := 10; o_block_limit := 3; o_back_limit := Z.to_nat 1000 |} |} =
   Some (AInfinite INF_MACRO_STEP b, 1, [])) /\
  exists tape, halts_at (table_of c07_tab) initial 134 128 1 true tape.
Proof.
  split; [eexists; vm_compute; reflexivity|]. apply halts_check_ok. vm_compute. reflexivity.
Qed.

Print Assumptions C65_answer_true_partial.
Print Assumptions C65_loops.
Print Assumptions C65_answers.
Print Assumptions C65_finds_halt.
Print Assumptions C65_fuel.
Print Assumptions C65_same_answer.
Print Assumptions C65_max_loops_refuted.
Print Assumptions C65_freeze_refuted.
Print Assumptions C65_print_loops_refuted.
Print Assumptions C65_abandoned_block_refuted.
