(** * Properties C60 and C61: tools that go through files of records *)
Require Import ZArith List Lia Bool Arith Permutation Sorting.Sorted.
From Verif Require Import Spec_TM M_Turing_Machine M_Direct M_Tape M_Simulator M_Settings P_Stream P_SimLimited P_Macro
  P_Tape P_Simulator P_Settings P_Direct P_Quint P_Compute Prop_Macro Prop_Prover M_CTL P_CTL P_CTLTerm Prop_CTL
  M_CPS P_CPS Prop_CPS M_Filters P_Filters Prop_Filters M_LinRecur P_LinRecur Prop_LinRecur M_IO P_IO P_Files M_Tools P_Tools.
Import ListNotations.
Open Scope Z_scope.

(** ** C60 *)

(** CTL_Filter (types 1 to 3), CPS_Filter and Reverse_Engineer_Filter, one after the other in any
    order and with any options, on a file of true records: what is written are true records of the
    same machines in the same order, all of them if the runs end without an exception. *)
Theorem C60_records_stay_true :
  forall fuel ord_c ord_b tools recs out b,
  (forall l x, In x (ord_c l) <-> In x l) -> (forall l x, In x (ord_b l) <-> In x l) ->
  Forall tool_sound tools -> Forall record_true recs ->
  filter_files fuel ord_c ord_b tools recs = (out, b) ->
  (length out <= length recs)%nat /\ (b = true -> length out = length recs) /\
  forall i r', nth_error out i = Some r' ->
    record_true r' /\ exists r, nth_error recs i = Some r /\ t_tab r' = t_tab r /\ t_states r' = t_states r /\ t_symbols r' = t_symbols r.
Proof.
  intros fuel ord_c ord_b tools recs out b Hc Hb HS. revert recs out b.
  induction HS as [|x tools Hx _ IH]; intros recs out b HT; cbn [filter_files].
  - intros X. injection X as <- <-. split; [lia|]. split; [reflexivity|]. intros i r' E. split; [|eauto].
    rewrite Forall_forall in HT. apply HT. eapply nth_error_In, E.
  - destruct (filter_file _ recs) as (o1, b1) eqn:E1.
    destruct (filter_file_spec _ _ _ _ E1) as (F & Len & B).
    assert (Here : forall i r', nth_error o1 i = Some r' ->
      record_true r' /\ exists r, nth_error recs i = Some r /\ t_tab r' = t_tab r /\ t_states r' = t_states r /\ t_symbols r' = t_symbols r).
    { intros i r' Ei. assert (Li : (i < length o1)%nat) by (apply nth_error_Some; congruence).
      destruct (nth_error recs i) as [r|] eqn:Er; [|apply nth_error_None in Er; lia].
      assert (A : apply_tool fuel ord_c ord_b x r = Some r').
      { clear - F Ei Er Li. revert i recs F Ei Er Li. induction o1 as [|y o1 IH]; intros i recs F Ei Er Li; [cbn in Li; lia|].
        destruct recs as [|z recs]; [destruct i; discriminate|]. cbn in F. inversion F; subst.
        destruct i as [|i]; [cbn in *; congruence|]. cbn in Ei, Er, Li. eapply IH; eauto; lia. }
      split; [|exists r; split; [reflexivity|exact (tool_same _ _ _ _ _ _ A)]].
      eapply (tool_true ord_c ord_b Hc Hb); [exact Hx| |exact A]. rewrite Forall_forall in HT. apply HT. eapply nth_error_In, Er. }
    destruct b1.
    + intros E2. destruct (IH o1 out b) as (L2 & B2 & H2).
      * apply Forall_forall. intros y Hy. apply In_nth_error in Hy. destruct Hy as (i & Hi). now apply (Here i).
      * exact E2.
      * pose proof (proj1 B eq_refl) as L1. split; [lia|]. split; [intros X; rewrite (B2 X); exact L1|].
        intros i r' Ei. destruct (H2 i r' Ei) as (T & r1 & E3 & S1 & S2 & S3). split; [exact T|].
        destruct (Here i r1 E3) as (_ & r & E4 & R1 & R2 & R3). exists r. split; [exact E4|]. repeat split; congruence.
    + intros X. injection X as <- <-. split; [exact Len|]. split; [discriminate|exact Here].
Qed.

(** Without CPS_Filter: what has been decided stays decided, the same way, and the steps and the
    score of a halting machine stay as they are. *)
Theorem C60_decisions_kept :
  forall fuel ord_c ord_b tools recs out,
  (forall l x, In x (ord_c l) <-> In x l) -> (forall l x, In x (ord_b l) <-> In x l) ->
  Forall tool_sound tools -> (forall o, ~ In (Tool_cps o) tools) -> Forall record_true recs ->
  filter_files fuel ord_c ord_b tools recs = (out, true) ->
  Forall2 (fun r r' => h_decided (t_halt r) = true ->
    h_decided (t_halt r') = true /\ h_halting (t_halt r') = h_halting (t_halt r) /\
    (h_halting (t_halt r) = true -> t_halt r' = t_halt r)) recs out.
Proof.
  intros fuel ord_c ord_b tools recs out Hc Hb HS. revert recs. change (forall recs, (forall o, ~ In (Tool_cps o) tools) -> Forall record_true recs ->
    filter_files fuel ord_c ord_b tools recs = (out, true) -> Forall2 keeps recs out).
  induction HS as [|x tools Hx _ IH]; intros recs NC HT; cbn [filter_files].
  - intros X. injection X as <-. clear. induction recs; constructor; [apply keeps_refl|assumption].
  - destruct (filter_file _ recs) as (o1, b1) eqn:E1. destruct b1; [|discriminate]. intros E2.
    pose proof (filter_file_finished _ _ _ E1) as F.
    assert (T1 : Forall record_true o1 /\ Forall2 keeps recs o1).
    { clear E1 E2 IH. induction F as [|r r' recs o1 A F IH]; [split; constructor|]. inversion HT; subst. destruct IH as (I1 & I2); [assumption|].
      split; constructor; auto; [eapply (tool_true ord_c ord_b Hc Hb); eassumption|].
      eapply (tool_keeps ord_c ord_b); try eassumption. intros o ->. apply (NC o). now left. }
    destruct T1 as (T1 & K1). specialize (IH o1 (fun o H => NC o (or_intror H)) T1 E2). clear - K1 IH. revert out IH.
    induction K1; intros out IH; inversion IH; subst; constructor; eauto using keeps_trans.
Qed.

(** CPS_Filter begins by deleting the results a record has: a machine known to halt, with its steps
    and score, leaves the filter undecided. *)
Definition bb2_record : tm_record := fresh_record bb2 2 2.
Definition bb2_decided : tm_record := match lin_recur 10 100 false bb2_record with Some r => r | None => bb2_record end.
Definition cps_default : cps_options := CpsOptions 1 2 0 1000000 500 10000 10000.
Theorem C60_cps_forgets_refuted :
  record_true bb2_decided /\ h_decided (t_halt bb2_decided) = true /\ h_steps (t_halt bb2_decided) = Some 6 /\
  exists out r, filter_files 100 (fun l => l) (fun l => l) [Tool_cps cps_default] [bb2_decided] = (out, true) /\
    out = [r] /\ h_decided (t_halt r) = false.
Proof.
  split.
  - apply (lin_recur_true 10 100 false bb2_record); [lia|apply fresh_true, bb2_wf|vm_compute; reflexivity].
  - split; [vm_compute; reflexivity|]. split; [vm_compute; reflexivity|]. do 2 eexists. split; [vm_compute; reflexivity|]. split; reflexivity.
Qed.

(** CTL_Filter with --offset k and a range of block sizes that begins below k + 1 stops with a failed
    assertion: nothing is written for this record and those behind it. *)
Definition ctl_default (kind : ctl_kind) : ctl_options := CtlOptions kind None 0 false 200 1 3 false.
Theorem C60_offset_refuted : forall fuel rest,
  (1000 <= fuel)%nat ->
  let o := CtlOptions CTL2 None 2 false 200 1 4 false in
  filter_files fuel (fun l => l) (fun l => l) [Tool_ctl o] (bb2_record :: rest) = ([], false).
Proof.
  intros fuel rest F o. cbn [filter_files filter_file apply_tool].
  assert (E : ctl_filter_all fuel o bb2_record = None); [|now rewrite E].
  unfold ctl_filter_all. change (0 <? co_max_block o)%nat with true. cbv iota.
  change (seq (co_min_block o) (S (co_max_block o) - co_min_block o)) with [1; 2; 3; 4]%nat.
  cbn [first_success]. unfold ctl_block_size. change (co_all_offsets o) with false. cbv iota.
  assert (E1 : ctl_filter fuel (co_kind o) 1 (co_offset o) (co_cutoff o) (negb (co_no_backsymbol o)) bb2_record = Some (bb2_record, false)).
  { unfold ctl_filter. cbn [Nat.eqb orb]. replace (test_CTL _ _ _ fuel _) with (Some (false, 0%nat)); [reflexivity|].
    symmetry. unfold test_CTL, ctl_setting, with_machine. cbn [Nat.eqb negb co_no_backsymbol o]. unfold test_machine.
    match goal with |- context [sim_seek ?a ?b ?c ?d] => destruct (sim_seek a b c d) as [[u s]|] eqn:E end.
    - replace (cond_eqb (s_op s) RUNNING) with false; [reflexivity|].
      match type of E with ?x = _ => let y := eval vm_compute in (match x with Some (_, s) => Some (s_op s) | None => None end) in
        assert (Y : (match x with Some (_, s) => Some (s_op s) | None => None end) = y) by (vm_compute; reflexivity) end.
      rewrite E in Y. injection Y as ->. reflexivity.
    - exfalso. revert E. vm_compute. discriminate. }
  rewrite E1. reflexivity.
Qed.

(** With a record that CTL4 wrongly calls infinite (see C32) a decided halting machine becomes a
    machine said never to halt. *)
Definition bad4_decided : tm_record := match lin_recur 10 100 false (fresh_record bad4 11 4) with Some r => r | None => fresh_record bad4 11 4 end.
Theorem C60_ctl4_refuted :
  record_true bad4_decided /\ h_halting (t_halt bad4_decided) = true /\
  exists out r, filter_files 20 (fun l => l) (fun l => l) [Tool_ctl (CtlOptions CTL4 (Some 1%nat) 0 true 7 1 0 false)] [bad4_decided] = (out, true) /\
    out = [r] /\ h_decided (t_halt r) = true /\ h_halting (t_halt r) = false.
Proof.
  split.
  - apply (lin_recur_true 10 100 false (fresh_record bad4 11 4)); [lia|apply fresh_true, (proj1 C32_ctl4_refuted)|vm_compute; reflexivity].
  - split; [vm_compute; reflexivity|]. do 2 eexists. split; [vm_compute; reflexivity|]. repeat split; reflexivity.
Qed.

(** ** the tools end: with --offset 0 (or --all-offsets), a positive smallest block size and a block
    size or a largest one given *)
Definition ctl_valid (o : ctl_options) : Prop :=
  (1 <= co_min_block o)%nat /\ (co_all_offsets o = true \/ co_offset o = 0%nat) /\
  ((0 < co_max_block o)%nat \/ exists bs, co_block_size o = Some bs /\ (1 <= bs)%nat).
Definition tool_valid (x : tool) : Prop :=
  match x with Tool_ctl o => ctl_valid o | Tool_cps o => (1 <= po_min_block o)%nat | Tool_reverse => True end.

Lemma first_success_total {A} (P : tm_record -> Prop) (f : A -> tm_record -> option (tm_record * bool)) l :
  (forall a r, In a l -> P r -> exists r' b, f a r = Some (r', b) /\ P r') ->
  forall r, P r -> exists r' b, first_success f l r = Some (r', b) /\ P r'.
Proof.
  induction l as [|a l IH]; intros H r HP; cbn [first_success]; [eauto|].
  destruct (H a r (or_introl eq_refl) HP) as (r1 & [|] & -> & HP1); [eauto|]. apply IH; [|exact HP1]. intros x y Hx. apply H. now right.
Qed.
Definition ctl_need (n m bs : nat) : nat := (2 * (n * S bs * m ^ bs) * S (6 * m ^ bs))%nat.
Lemma ctl_filter_total fuel kind bs off cut ub r n m : wf_ttable n m (t_tab r) -> (bs = 1 \/ off < bs)%nat -> (ctl_need n m bs < fuel)%nat ->
  exists r' b, ctl_filter fuel kind bs off cut ub r = Some (r', b) /\ t_tab r' = t_tab r.
Proof.
  intros W V F. unfold ctl_filter.
  replace (Nat.eqb bs 1 || (Nat.ltb 0 bs && Nat.ltb off bs)) with true.
  - destruct (C29_ctl_answers n m (t_tab r) bs off ub (Z.to_nat 10000) (Z.to_nat 1000) kind fuel cut W V) as (a & i & ->).
    + eapply Nat.le_lt_trans; [|exact F]. unfold ctl_need. apply Nat.mul_le_mono; [|lia]. apply Nat.mul_le_mono_l.
      assert (0 < m)%nat by (destruct W as (_ & ? & _); lia).
      pose proof (Nat.pow_nonzero m bs ltac:(lia)). destruct ub; nia.
    + destruct a; do 2 eexists; split; reflexivity.
  - symmetry. apply orb_true_iff. destruct V as [->|V]; [now left|right]. apply andb_true_iff. split; apply Nat.ltb_lt; lia.
Qed.
Lemma needs_bound n m l : exists F, forall bs, In bs l -> (ctl_need n m bs < F)%nat.
Proof.
  induction l as [|b l (F & H)]; [exists 0%nat; intros ? []|]. exists (S (ctl_need n m b + F)). intros bs [->|I]; [lia|]. specialize (H bs I). lia.
Qed.
Lemma tool_total ord_c ord_b x r : (forall l x, In x (ord_c l) <-> In x l) -> (forall l x, In x (ord_b l) <-> In x l) ->
  tool_valid x -> wf_ttable (t_states r) (t_symbols r) (t_tab r) ->
  exists F, forall fuel, (F <= fuel)%nat -> apply_tool fuel ord_c ord_b x r <> None.
Proof.
  intros Hc Hb V W. destruct x as [o|o|]; cbn [tool_valid apply_tool] in *.
  - destruct V as (V1 & V2 & V3).
    destruct (needs_bound (t_states r) (t_symbols r)
      (match co_block_size o with Some bs => [bs] | None => [] end ++ seq (co_min_block o) (S (co_max_block o) - co_min_block o))) as (F & HF).
    exists F. intros fuel Ff.
    assert (G : exists r' b, ctl_filter_all fuel o r = Some (r', b) /\ t_tab r' = t_tab r).
    { assert (B : forall bs y, (1 <= bs)%nat -> (ctl_need (t_states r) (t_symbols r) bs < fuel)%nat -> t_tab y = t_tab r ->
        exists z b, ctl_block_size fuel o bs y = Some (z, b) /\ t_tab z = t_tab r).
      { intros bs y Hbs Hf Hy. unfold ctl_block_size. rewrite <- Hy in W. destruct (co_all_offsets o).
        - apply (first_success_total (fun z => t_tab z = t_tab r)); [|exact Hy]. intros off z Hoff Hz. apply in_seq in Hoff.
          rewrite Hy, <- Hz in W. destruct (ctl_filter_total fuel (co_kind o) bs off (co_cutoff o) (negb (co_no_backsymbol o)) z _ _ W ltac:(lia) Hf) as (z' & b & E & T).
          exists z', b. split; [exact E|congruence].
        - destruct V2 as [|V2]; [discriminate|]. rewrite V2.
          destruct (ctl_filter_total fuel (co_kind o) bs 0 (co_cutoff o) (negb (co_no_backsymbol o)) y _ _ W ltac:(lia) Hf) as (z' & b & E & T).
          exists z', b. split; [exact E|congruence]. }
      unfold ctl_filter_all. destruct (Nat.ltb_spec 0 (co_max_block o)) as [M0|M0].
      - apply (first_success_total (fun z => t_tab z = t_tab r)); [|reflexivity]. intros bs z Hbs Hz. apply B; [apply in_seq in Hbs; lia| |exact Hz].
        eapply Nat.lt_le_trans; [|exact Ff]. apply HF. apply in_or_app. now right.
      - destruct V3 as [|(bs & E & Hbs)]; [lia|]. rewrite E in *. apply B; [exact Hbs| |reflexivity].
        eapply Nat.lt_le_trans; [|exact Ff]. apply HF. now left. }
    destruct G as (r' & b & -> & _). discriminate.
  - exists 0%nat. intros fuel _. unfold cps_record. cbn [t_tab clear_proto fresh_record].
    destruct (C33_cps_filter_all_sound _ _ _ ord_c ord_b (po_min_block o) (po_max_block o) (po_max_window o)
                (po_max_steps o) (po_max_iters o) (po_max_configs o) (po_max_edges o) W Hc Hb V) as ([|] & -> & _); discriminate.
  - exists 0%nat. intros fuel _. unfold reverse_record. destruct (C35_reverse_engineer_answers _ _ _ W) as ([|] & ->); discriminate.
Qed.
Theorem C60_tools_end :
  forall ord_c ord_b x recs,
  (forall l x, In x (ord_c l) <-> In x l) -> (forall l x, In x (ord_b l) <-> In x l) ->
  tool_valid x -> Forall record_true recs ->
  exists F, forall fuel, (F <= fuel)%nat -> exists out, filter_files fuel ord_c ord_b [x] recs = (out, true) /\ length out = length recs.
Proof.
  intros ord_c ord_b x recs Hc Hb V HT.
  assert (G : exists F, forall fuel, (F <= fuel)%nat -> forall r, In r recs -> apply_tool fuel ord_c ord_b x r <> None).
  { induction HT as [|r recs (W & _) _ (F & IH)]; [exists 0%nat; intros ? ? ? []|].
    destruct (tool_total ord_c ord_b x r Hc Hb V W) as (F1 & H1). exists (F + F1)%nat. intros fuel Hf y [<-|I]; [apply H1; lia|apply IH; [lia|exact I]]. }
  destruct G as (F & G). exists F. intros fuel Hf. destruct (filter_file_total (apply_tool fuel ord_c ord_b x) recs (G fuel Hf)) as (out & E).
  exists out. cbn [filter_files]. rewrite E. split; [reflexivity|]. pose proof (filter_file_finished _ _ _ E) as F2. clear - F2.
  induction F2; cbn; congruence.
Qed.

(** CTL_Filter and Reverse_Engineer_Filter set quasihalt_status.is_decided to False when they succeed,
    also where it had been decided. *)
Definition drop_rows : list quint :=
  [Quint 0 0 (Some 1%nat) R (SRun 1); Quint 1 0 (Some 1%nat) R (SRun 1); Quint 1 1 (Some 1%nat) R (SRun 1)].
Definition drop_tab : ttable := match tm_from_quintuples drop_rows 2 2 with Some t => t | None => [] end.
Definition drop_record : tm_record := fresh_record drop_tab 2 2.
Lemma drop_wf : wf_ttable 2 2 drop_tab.
Proof. apply (quintuples_wf drop_rows); [lia|lia|reflexivity]. Qed.
Definition drop_decided : tm_record := match lin_recur 10 100 false drop_record with Some r => r | None => drop_record end.
Lemma drop_decided_true : record_true drop_decided.
Proof. apply (lin_recur_true 10 100 false drop_record); [lia|apply fresh_true, drop_wf|vm_compute; reflexivity]. Qed.
Definition ctl_early : ctl_options := CtlOptions CTL1 None 0 false 0 1 3 false.
Theorem C60_quasihalt_forgotten_refuted :
  record_true drop_decided /\ t_quasi drop_decided = QuasiStatus true true (Some 1) 0 /\
  forall x, In x [Tool_reverse; Tool_ctl ctl_early] ->
  exists out r, filter_files 1000 (fun l => l) (fun l => l) [x] [drop_decided] = (out, true) /\
    out = [r] /\ q_decided (t_quasi r) = false.
Proof.
  split; [exact drop_decided_true|]. split; [vm_compute; reflexivity|].
  intros x [<-|[<-|[]]]; (do 2 eexists; split; [vm_compute; reflexivity|]; split; reflexivity).
Qed.

(** a file of three records through three tools *)
Definition bouncer_record : tm_record := fresh_record bouncer 2 2.
Example C60_case :
  let tools := [Tool_reverse; Tool_ctl (ctl_default CTL1); Tool_cps (CpsOptions 1 2 0 1000 500 1000 1000)] in
  let recs := [bb2_decided; drop_record; bouncer_record] in
  Forall tool_sound tools /\ Forall tool_valid tools /\ Forall record_true recs /\
  map (fun r => (h_decided (t_halt r), h_halting (t_halt r)))
      (fst (filter_files 1000 (fun l => l) (fun l => l) [Tool_reverse; Tool_ctl (ctl_default CTL1)] recs)) = [(true, true); (true, false); (true, false)] /\
  map (fun r => (h_decided (t_halt r), h_halting (t_halt r)))
      (fst (filter_files 1000 (fun l => l) (fun l => l) tools recs)) = [(false, false); (true, false); (true, false)].
Proof.
  cbv zeta. split; [|split; [|split; [|split; vm_compute; reflexivity]]].
  - apply Forall_forall. intros x [<-|[<-|[<-|[]]]]; cbn [tool_sound]; [exact I|discriminate|cbn; lia].
  - apply Forall_forall. intros x [<-|[<-|[<-|[]]]]; cbn [tool_valid]; [exact I| |cbn; lia].
    split; [cbn; lia|]. split; [now right|]. left. cbn. lia.
  - apply Forall_forall. intros x [<-|[<-|[<-|[]]]]; [exact (proj1 C60_cps_forgets_refuted)|apply fresh_true, drop_wf|apply fresh_true, bouncer_wf].
Qed.

Print Assumptions C60_records_stay_true.
Print Assumptions C60_decisions_kept.
Print Assumptions C60_tools_end.
Print Assumptions C60_cps_forgets_refuted.
Print Assumptions C60_offset_refuted.
Print Assumptions C60_ctl4_refuted.
Print Assumptions C60_quasihalt_forgotten_refuted.

(** ** C61 *)

(** *** IO_Categorize *)
Lemma category_eqb_eq a b : category_eqb a b = true <-> a = b.
Proof. destruct a, b; cbn; split; (reflexivity || discriminate). Qed.
Lemma categorize_fold recs : forall o,
  let o' := fold_left categorize_write recs o in
  (forall c, o_file o' c = o_file o c ++ filter (fun r => category_eqb c (categorize r)) recs) /\
  (forall c, o_count o' c = o_count o c + length (filter (fun r => category_eqb c (categorize r)) recs))%nat /\
  o_written o' = (o_written o + length recs)%nat.
Proof.
  induction recs as [|r recs IH]; intros o; cbn [fold_left].
  - cbn. split; [intros c; now rewrite app_nil_r|]. split; [intros c; lia|lia].
  - destruct (IH (categorize_write o r)) as (H1 & H2 & H3). cbv zeta in *. split; [|split].
    + intros c. rewrite H1. cbn [categorize_write o_file filter]. destruct (category_eqb c (categorize r)); [now rewrite <- app_assoc|reflexivity].
    + intros c. rewrite H2. cbn [categorize_write o_count filter]. destruct (category_eqb c (categorize r)); cbn [length]; lia.
    + rewrite H3. cbn. lia.
Qed.
Lemma categorize_all files :
  (forall c, o_file (categorize_files files) c = filter (fun r => category_eqb c (categorize r)) (concat files)) /\
  (forall c, o_count (categorize_files files) c = length (o_file (categorize_files files) c)) /\
  o_written (categorize_files files) = length (concat files).
Proof.
  assert (E : categorize_files files = fold_left categorize_write (concat files) outputs_init).
  { unfold categorize_files. generalize outputs_init. induction files as [|f files IH]; intros o; cbn [fold_left concat]; [reflexivity|].
    now rewrite IH, fold_left_app. }
  rewrite E. destruct (categorize_fold (concat files) outputs_init) as (H1 & H2 & H3). cbv zeta in *. split; [exact H1|]. split; [|exact H3].
  intros c. rewrite H1, H2. reflexivity.
Qed.
(** Every record is written to exactly one of the eight files, no record twice, in the order of the
    input; the counters are the numbers of records and add up to the total. *)
Theorem C61_categorize_partition : forall files,
  let o := categorize_files files in
  let all := [HaltSmall; HaltLarge; HaltUnk; QhaltSmall; QhaltLarge; QhaltUnk; Infinite; Unknown] in
  Permutation (concat (map (o_file o) all)) (concat files) /\
  (forall c i j r r', (i < j)%nat -> nth_error (o_file o c) i = Some r -> nth_error (o_file o c) j = Some r' ->
     exists i' j', (i' < j')%nat /\ nth_error (concat files) i' = Some r /\ nth_error (concat files) j' = Some r') /\
  (forall c c' i r, c <> c' -> nth_error (o_file o c) i = Some r -> ~ In r (o_file o c')) /\
  (forall c, o_count o c = length (o_file o c)) /\
  o_written o = length (concat files) /\ fold_right (fun c k => (o_count o c + k)%nat) 0%nat all = o_written o.
Proof.
  intros files o all. destruct (categorize_all files) as (H1 & H2 & H3). fold o in H1, H2, H3.
  assert (P : Permutation (concat (map (o_file o) all)) (concat files)).
  { rewrite (map_ext _ _ H1). generalize (concat files). intros l. induction l as [|r l IH]; [reflexivity|].
    transitivity (r :: concat (map (fun c => filter (fun r => category_eqb c (categorize r)) l) all)); [|now constructor].
    clear. cbn [all map concat]. cbn [filter]. rewrite app_nil_r.
    destruct (categorize r); cbn [category_eqb]; cbn [app]; rewrite ?app_nil_r; repeat (apply Permutation_sym, Permutation_cons_app; apply Permutation_refl || (rewrite <- ?app_assoc; symmetry));
    repeat first [ apply Permutation_refl | apply Permutation_sym, Permutation_middle
                 | rewrite !app_assoc; rewrite <- !app_assoc; idtac ].
    all: try (rewrite !app_assoc; apply Permutation_sym; rewrite <- Permutation_middle; now rewrite <- ?app_assoc).
  }
  split; [exact P|]. split; [|split; [|split; [exact H2|split; [exact H3|]]]].
  - intros c i j r r' L Ei Ej. rewrite H1 in Ei, Ej. revert i j L Ei Ej. generalize (concat files) as l.
    induction l as [|x l IH]; intros i j L Ei Ej; [destruct i; discriminate|]. cbn [filter] in Ei, Ej.
    destruct (category_eqb c (categorize x)).
    + destruct j as [|j]; [lia|]. cbn in Ej. destruct i as [|i].
      * cbn in Ei. injection Ei as ->. assert (I : In r' l) by (eapply filter_In; eapply nth_error_In, Ej).
        apply In_nth_error in I. destruct I as (k & Ek). exists 0%nat, (S k). split; [lia|]. split; [reflexivity|exact Ek].
      * cbn in Ei. destruct (IH i j) as (i' & j' & Hij & A & B); auto; [lia|]. exists (S i'), (S j'). split; [lia|auto].
    + destruct (IH i j L Ei Ej) as (i' & j' & Hij & A & B). exists (S i'), (S j'). split; [lia|auto].
  - intros c c' i r N Ei I. rewrite H1 in Ei, I. apply nth_error_In in Ei. apply filter_In in Ei as (_ & E1). apply filter_In in I as (_ & E2).
    apply category_eqb_eq in E1. apply category_eqb_eq in E2. congruence.
  - rewrite H3, <- (Permutation_length P). unfold all. cbn [map concat fold_right]. rewrite !app_length, !H2. reflexivity.
Qed.
(** What the names of the files say is true of the machines in them, if the records are true. *)
Theorem C61_categories_true : forall files c r,
  Forall record_true (concat files) -> In r (o_file (categorize_files files) c) ->
  let T := table_of (t_tab r) in
  match c with
  | HaltSmall => exists k s x e t, halts_at T initial k s x e t /\ (k < 1000)%nat
  | HaltLarge => exists k s x e t, halts_at T initial k s x e t /\ (1000 <= k)%nat
  | HaltUnk | QhaltUnk => False
  | QhaltSmall => exists k q, k < 1000 /\ nonhalting T initial /\ quasi_true T (QHalt k (SRun q))
  | QhaltLarge => exists k q, 1000 <= k /\ nonhalting T initial /\ quasi_true T (QHalt k (SRun q))
  | Infinite => nonhalting T initial
  | Unknown => h_decided (t_halt r) = false
  end.
Proof.
  intros files c r HT I T. destruct (categorize_all files) as (H1 & _). rewrite H1 in I. apply filter_In in I as (I & E).
  rewrite Forall_forall in HT. destruct (HT r I) as (_ & Hh & (Hq & _) & _). apply category_eqb_eq in E. subst c. unfold categorize.
  unfold halt_true in Hh. fold T in Hh, Hq. destruct (h_decided (t_halt r)); cbn [negb]; [|reflexivity]. specialize (Hh eq_refl).
  destruct (h_halting (t_halt r)).
  - destruct Hh as (k & sc & e & t & -> & _ & H & _). destruct (Z.ltb_spec (Z.of_nat k) 1000); exists k, (h_state (t_halt r)), (h_symbol (t_halt r)), e, t; split; auto; lia.
  - destruct (q_halting (t_quasi r)); [|exact Hh]. destruct (Hq eq_refl) as (k & -> & N & Q).
    destruct (Z.ltb_spec k 1000); exists k, (q_state (t_quasi r)); auto.
Qed.
(** The file "infinite", in the code "Infinite (non quasihalting)", also gets machines of which only
    the halting is decided: here one that quasihalts at step 1. *)
Theorem C61_infinite_quasihalts_refuted :
  exists r, record_true r /\ In r (o_file (categorize_files [[r]]) Infinite) /\
    quasi_true (table_of (t_tab r)) (QHalt 1 (SRun 0)).
Proof.
  exists (match reverse_record drop_record with Some r => r | None => drop_record end). split; [|split].
  - apply (tool_true (fun l => l) (fun l => l) (fun l x => iff_refl _) (fun l x => iff_refl _) 0 Tool_reverse drop_record _ I (fresh_true _ _ _ drop_wf)). vm_compute. reflexivity.
  - vm_compute. left. reflexivity.
  - destruct drop_decided_true as (_ & _ & (Hq & _) & _). destruct Hq as (k & E & _ & Q); [vm_compute; reflexivity|].
    vm_compute in E. injection E as <-. exact Q.
Qed.

(** *** IO_Sort: the same records, by falling score, records with equal scores in their order *)
Definition by_score (a b : tm_record) : Prop := sorting_func b <= sorting_func a.
Lemma insert_perm r l : Permutation (insert_desc r l) (r :: l).
Proof. induction l as [|x l IH]; cbn [insert_desc]; [reflexivity|]. destruct (_ <=? _); [reflexivity|]. rewrite IH. apply perm_swap. Qed.
Lemma insert_sorted r l : StronglySorted by_score l -> StronglySorted by_score (insert_desc r l).
Proof.
  induction 1 as [|x l S IH F]; cbn [insert_desc]; [repeat constructor|]. destruct (Z.leb_spec (sorting_func x) (sorting_func r)) as [H|H].
  - constructor; [now constructor|]. constructor; [exact H|]. eapply Forall_impl; [|exact F]. unfold by_score. intros; lia.
  - constructor; [exact IH|]. rewrite Forall_forall in *. intros y Hy. apply (Permutation_in _ (insert_perm r l)) in Hy.
    destruct Hy as [<-|Hy]; [unfold by_score; lia|now apply F].
Qed.
Lemma insert_stable k r l : filter (fun x => sorting_func x =? k) (insert_desc r l) = filter (fun x => sorting_func x =? k) (r :: l).
Proof.
  induction l as [|x l IH]; cbn [insert_desc]; [reflexivity|]. destruct (Z.leb_spec (sorting_func x) (sorting_func r)) as [H|H]; [reflexivity|].
  cbn [filter] in *. rewrite IH. destruct (Z.eqb_spec (sorting_func x) k), (Z.eqb_spec (sorting_func r) k); (lia || reflexivity).
Qed.
Theorem C61_sort : forall recs,
  Permutation (sort_records recs) recs /\
  (forall i j r r', (i < j)%nat -> nth_error (sort_records recs) i = Some r -> nth_error (sort_records recs) j = Some r' ->
     sorting_func r' <= sorting_func r) /\
  (forall k, filter (fun x => sorting_func x =? k) (sort_records recs) = filter (fun x => sorting_func x =? k) recs).
Proof.
  intros recs. split; [|split].
  - induction recs as [|r recs IH]; cbn; [reflexivity|]. rewrite insert_perm. now constructor.
  - assert (S : StronglySorted by_score (sort_records recs)) by (induction recs; cbn; [constructor|now apply insert_sorted]).
    induction S as [|x l S IH F]; intros i j r r' Hij Ei Ej; [destruct i; discriminate|]. destruct j as [|j]; [lia|]. cbn in Ej. destruct i as [|i].
    + cbn in Ei. injection Ei as <-. rewrite Forall_forall in F. apply F. eapply nth_error_In, Ej.
    + cbn in Ei. apply (IH i j); auto; lia.
  - intros k. induction recs as [|r recs IH]; cbn [sort_records fold_right]; [reflexivity|]. rewrite insert_stable. cbn [filter].
    fold (sort_records recs). now rewrite IH.
Qed.

(** *** IO_Count *)
Lemma count_prefix : forall recs ws data pos fuel tail c,
  otraverse (map write_record recs) = Some ws -> skipn pos data = concat ws ++ tail -> (length recs <= fuel)%nat ->
  exists pos', skipn pos' data = tail /\ count_loop fuel (File data pos) c = count_loop (fuel - length recs) (File data pos') (c + length recs).
Proof.
  induction recs as [|r recs IH]; intros ws data pos fuel tail c Hw E Hf.
  - injection Hw as <-. exists pos. cbn [length]. rewrite Nat.sub_0_r, Nat.add_0_r. split; [exact E|reflexivity].
  - simpl in Hw. destruct (write_record r) as [w|] eqn:Ew; [|discriminate].
    destruct (otraverse (map write_record recs)) as [ws0|] eqn:Ews; [|discriminate]. injection Hw as <-. cbn [concat] in E.
    rewrite <- app_assoc in E. destruct (read_record_ok _ _ _ _ _ Ew E) as (_ & Es & E').
    destruct fuel as [|fuel]; [simpl in Hf; lia|]. cbn [count_loop]. rewrite Es.
    destruct (IH ws0 data _ fuel tail (S c) eq_refl E') as (pos' & H1 & H2); [simpl in Hf; lia|].
    exists pos'. split; [exact H1|]. rewrite H2. f_equal. cbn [length]. lia.
Qed.
Lemma count_eof data pos fuel c : skipn pos data = [] -> count_loop (S fuel) (File data pos) c = (c, true).
Proof. intros E. cbn [count_loop]. destruct (eof_at_end data pos E) as (_ & f & -> & _). reflexivity. Qed.
Lemma count_full recs data : write_records recs = Some data -> count_file data = (length recs, true).
Proof.
  unfold write_records. destruct (otraverse (map write_record recs)) as [ws|] eqn:E; [|discriminate]. cbn [option_map]. intros X. injection X as <-.
  pose proof (records_length _ _ E) as L. unfold count_file.
  destruct (count_prefix recs ws (concat ws) 0 (S (length (concat ws))) [] 0 E) as (pos' & H1 & ->); [cbn; now rewrite app_nil_r|lia|].
  replace (S (length (concat ws)) - length recs)%nat with (S (length (concat ws) - length recs)) by lia. now apply count_eof.
Qed.
(** The number printed for complete files is the number of records in them. *)
Theorem C61_count : forall (files : list (list (list Z) * list Z)),
  Forall (fun f => write_records (fst f) = Some (snd f)) files ->
  count_files (map snd files) = length (concat (map fst files)).
Proof.
  intros files H. unfold count_files.
  assert (G : forall c, fold_left (fun count data => (count + fst (count_file data))%nat) (map snd files) c = (c + length (concat (map fst files)))%nat).
  { induction H as [|f files Hf _ IH]; intros c; cbn [map fold_left concat length]; [lia|].
    rewrite IH, (count_full _ _ Hf), app_length. cbn [fst]. lia. }
  apply G.
Qed.
(** A file cut off anywhere: the complete records are counted, and one more if the cut is behind the
    length field of a record, not at its end. *)
Theorem C61_count_cut : forall recs data k, write_records recs = Some data -> (k <= length data)%nat ->
  let complete := length (fst (read_file (firstn k data))) in
  let rest := (k - length (match write_records (firstn complete recs) with Some d => d | None => [] end))%nat in
  count_file (firstn k data) =
    (if Nat.ltb rest 4 then complete else S complete, Nat.eqb rest 0 || Nat.leb 4 rest).
Proof.
  intros recs data k Hw Hk. unfold write_records in Hw. destruct (otraverse (map write_record recs)) as [ws|] eqn:Ews; [|discriminate].
  cbn in Hw. injection Hw as <-.
  destruct (cut_split recs ws k Ews Hk) as [(j & ws' & Hj & Hws & E)|(j & ws' & r & w & k' & Hj & Hwr & Hk' & Hws & E)].
  - assert (Hd : write_records (firstn j recs) = Some (firstn k (concat ws))) by (unfold write_records; rewrite Hws; cbn; now rewrite E).
    rewrite (read_file_full _ _ Hd). cbn [fst]. cbv zeta. assert (Ej : length (firstn j recs) = j) by (rewrite firstn_length; lia). rewrite Ej, Hd.
    rewrite firstn_length. replace (k - Nat.min k (length (concat ws)))%nat with 0%nat by lia.
    rewrite (count_full _ _ Hd), Ej. reflexivity.
  - assert (Lj : (j < length recs)%nat) by (apply nth_error_Some; congruence).
    assert (Ej : length (firstn j recs) = j) by (rewrite firstn_length; lia).
    pose proof (records_length _ _ Hws) as L4. rewrite Ej in L4.
    assert (Lk : k = (length (concat ws') + k')%nat).
    { pose proof (f_equal (@length Z) E) as X. rewrite app_length, !firstn_length in X. lia. }
    assert (Rd : read_file (firstn k (concat ws)) = (firstn j recs, false)).
    { unfold read_file. rewrite E.
      rewrite (read_all_prefix (firstn j recs) ws' (concat ws' ++ firstn k' w) 0 _ (firstn k' w) Broken Hws); auto.
      - rewrite app_length. rewrite Ej. lia.
      - intros pos' Hp. destruct (read_record_cut r w _ pos' k' Hwr Hp) as (X & _); [lia|]. rewrite X.
        destruct (Nat.eqb_spec k' 0); [lia|reflexivity].
      - discriminate. }
    rewrite Rd. cbn [fst]. cbv zeta. rewrite Ej. unfold write_records. rewrite Hws. cbn [option_map].
    replace (k - length (concat ws'))%nat with k' by lia.
    unfold count_file. rewrite E.
    destruct (count_prefix (firstn j recs) ws' (concat ws' ++ firstn k' w) 0 (S (length (concat ws' ++ firstn k' w))) (firstn k' w) 0 Hws eq_refl) as (pos' & H1 & ->).
    { rewrite app_length, Ej. lia. }
    rewrite Ej. assert (Lw : length (firstn k' w) = k') by (rewrite firstn_length; lia).
    set (data := concat ws' ++ firstn k' w) in *.
    assert (Ld : length data = (length (concat ws') + k')%nat) by (unfold data; rewrite app_length; lia).
    destruct (S (length data) - j)%nat as [|[|fuel]] eqn:EF; [lia|lia|].
    cbn [count_loop]. unfold skip_record at 1, read_message_len, fread. cbn [f_pos f_data]. rewrite H1.
    assert (W4 : exists ln, pack_len (Z.of_nat (length r)) = Some ln /\ w = ln ++ r /\ length ln = 4%nat).
    { unfold write_record in Hwr. destruct (pack_len (Z.of_nat (length r))) as [ln|] eqn:Ep; [|discriminate]. cbn in Hwr. injection Hwr as <-.
      exists ln. split; [reflexivity|]. split; [reflexivity|]. unfold pack_len in Ep. destruct (_ && _); [|discriminate]. injection Ep as <-. reflexivity. }
    destruct W4 as (ln & Ep & -> & L4n).
    assert (Up : unpack_len ln = Some (Z.of_nat (length r))) by (now apply unpack_pack_len).
    destruct (Nat.ltb_spec k' 4) as [S4|S4].
    + rewrite firstn_firstn, Nat.min_r by lia. rewrite firstn_app. replace (k' - length ln)%nat with 0%nat by lia. cbn [firstn]. rewrite app_nil_r.
      assert (Un : unpack_len (firstn k' ln) = None).
      { destruct ln as [|a [|b [|c [|d [|]]]]]; try discriminate. destruct k' as [|[|[|[|]]]]; try lia; reflexivity. }
      destruct (firstn k' ln) eqn:Ef; [apply (f_equal (@length Z)) in Ef; rewrite firstn_length in Ef; cbn in Ef; lia|]. rewrite Un.
      replace (Nat.eqb k' 0) with false by (symmetry; apply Nat.eqb_neq; lia). replace (Nat.leb 4 k') with false by (symmetry; apply Nat.leb_gt; lia).
      reflexivity.
    + rewrite firstn_firstn, Nat.min_l by lia. rewrite firstn_app, (firstn_all2 (n := 4) ln) by lia.
      replace (4 - length ln)%nat with 0%nat by lia. cbn [firstn]. rewrite app_nil_r.
      destruct ln as [|a ln']; [discriminate|]. rewrite Up. rewrite Nat2Z.id. cbn [fseek f_data f_pos].
      pose proof (count_eof data (pos' + length (a :: ln') + length r) fuel (S (0 + j))) as Y. cbn [count_loop] in Y.
      unfold fseek. cbn [f_data f_pos]. rewrite Y; [|].
      * replace (Nat.eqb k' 0) with false by (symmetry; apply Nat.eqb_neq; lia). replace (Nat.leb 4 k') with true by (symmetry; apply Nat.leb_le; lia). reflexivity.
      * apply skipn_all2. assert (Lp : length (skipn pos' data) = k') by (rewrite H1; exact Lw). rewrite skipn_length in Lp.
        rewrite app_length in Hk'. lia.
Qed.
(** so the number printed can be one more than the number of records that can be read *)
Theorem C61_count_refuted : exists recs data k, write_records recs = Some data /\
  fst (count_file (firstn k data)) = 2%nat /\ fst (read_file (firstn k data)) = [[7; 8]].
Proof. exists [[7; 8]; [9; 10; 11]]. eexists. exists 11%nat. split; [vm_compute; reflexivity|]. split; vm_compute; reflexivity. Qed.

(** *** Zero_Reflexive: the machines in the first file have a state that reads a blank and stays the
    same or is not defined there; a machine in the second file never stays in its state on a blank *)
Lemma zero_reflexive_ok n m tab l : wf_ttable n m tab -> (forall q, In q l -> (q < n)%nat) ->
  exists b, zero_reflexive_from tab l = Some b /\
    (b = true <-> exists q, In q l /\ ((exists w d, table_of tab q 0%nat = Go w d q) \/ exists w d, table_of tab q 0%nat = Stop w d false)).
Proof.
  intros W. induction l as [|q l IH]; intros Hl; cbn [zero_reflexive_from].
  - exists false. split; [reflexivity|]. split; [discriminate|]. intros (q & [] & _).
  - destruct (wf_lookup n m tab q 0 W) as (row & t & E1 & E2 & OK); [apply Hl; now left|destruct W as (_ & ? & _); lia|].
    assert (ES : simple_trans tab 0 (SRun q) = Some t) by (unfold simple_trans; now rewrite E1).
    rewrite ES. destruct IH as (b & Eb & Hb); [intros x Hx; apply Hl; now right|].
    assert (ET : table_of tab q 0%nat = match t_cond t, t_state t with RUNNING, SRun q' => Go (t_sym t) (t_dir t) q' | HALT, _ => Stop (t_sym t) (t_dir t) true | _, _ => Stop (t_sym t) (t_dir t) false end)
      by (unfold table_of; now rewrite E1, E2).
    clear ES E1 E2. destruct OK as (_ & _ & OK).
    assert (G : (sstate_eqb (SRun q) (t_state t) || cond_eqb (t_cond t) UNDEFINED) = true <->
                ((exists w d, table_of tab q 0%nat = Go w d q) \/ exists w d, table_of tab q 0%nat = Stop w d false)).
    { rewrite ET. destruct (t_cond t); try contradiction.
      - destruct OK as (_ & _ & q' & -> & _). cbn [sstate_eqb cond_eqb]. rewrite orb_false_r, Nat.eqb_eq. split.
        + intros <-. left. eauto.
        + intros [(w & d & H)|(w & d & H)]; [now injection H as _ _ ->|discriminate].
      - destruct OK as (_ & ->). cbn. split; [discriminate|]. intros [(w & d & H)|(w & d & H)]; discriminate.
      - destruct OK as (_ & ->). cbn. split; [right; eauto|reflexivity]. }
    destruct (_ || _).
    + exists true. split; [reflexivity|]. split; [intros _|reflexivity]. exists q. split; [now left|]. now apply G.
    + exists b. split; [exact Eb|]. rewrite Hb. split.
      * intros (x & I & H). exists x. split; [now right|exact H].
      * intros (x & [<-|I] & H); [apply G in H; discriminate|exists x; auto].
Qed.
Theorem C61_zero_reflexive : forall recs, Forall (fun r => wf_ttable (t_states r) (t_symbols r) (t_tab r)) recs ->
  exists zr non_zr, zero_reflexive_split recs = Some (zr, non_zr, length zr, length recs) /\
    Permutation (zr ++ non_zr) recs /\
    (forall r, In r zr -> exists q, (q < t_states r)%nat /\
       ((exists w d, table_of (t_tab r) q 0%nat = Go w d q) \/ exists w d, table_of (t_tab r) q 0%nat = Stop w d false)) /\
    (forall r, In r non_zr -> forall k c d, steps (table_of (t_tab r)) k initial = Some c -> tp c (hd c) = 0%nat ->
       step (table_of (t_tab r)) c = Some d -> st d <> st c).
Proof.
  induction 1 as [|r recs W _ (zr & non_zr & E & P & H1 & H2)]; cbn [zero_reflexive_split].
  - exists [], []. split; [reflexivity|]. split; [constructor|]. split; intros r [].
  - unfold is_zero_reflexive. destruct (zero_reflexive_ok _ _ _ (seq 0 (t_states r)) W) as (b & Eb & Hb); [intros q Hq; apply in_seq in Hq; lia|].
    rewrite Eb, E. destruct b.
    + exists (r :: zr), non_zr. split; [reflexivity|]. split; [cbn; now constructor|]. split; [|exact H2].
      intros y [<-|I]; [|now apply H1]. destruct (proj1 Hb eq_refl) as (q & Iq & H). exists q. split; [apply in_seq in Iq; lia|exact H].
    + exists zr, (r :: non_zr). split; [reflexivity|]. split; [apply Permutation_sym, Permutation_cons_app, Permutation_sym, P|]. split; [exact H1|].
      intros y [<-|I]; [|now apply H2]. intros k c d Ec Hz Hd Est.
      assert (F : true = true -> false = true); [intros _|discriminate (F eq_refl)]. apply Hb.
      unfold step in Hd. rewrite Hz in Hd. destruct (table_of (t_tab r) (st c) 0%nat) as [w e q|] eqn:Et; [|discriminate].
      injection Hd as <-. cbn in Est. subst q. exists (st c). split; [|left; eauto]. apply in_seq. split; [lia|].
      unfold table_of in Et. destruct (nth_error (t_tab r) (st c)) eqn:En; [|discriminate].
      assert (X : (st c < length (t_tab r))%nat) by (apply nth_error_Some; congruence). destruct W as (_ & _ & L & _). lia.
Qed.

(** records in two files, one of them sorted *)
Example C61_case :
  let recs := [bb2_decided; drop_decided; bouncer_record; bad4_decided] in
  Forall record_true recs /\ map categorize recs = [HaltSmall; QhaltSmall; Unknown; HaltSmall] /\
  map sorting_func recs = [4; 0; 0; 7] /\ map sorting_func (sort_records recs) = [7; 4; 0; 0] /\
  sort_records recs = [bad4_decided; bb2_decided; drop_decided; bouncer_record] /\
  map o_written [categorize_files [recs; recs]] = [8%nat] /\ o_count (categorize_files [recs; recs]) HaltSmall = 4%nat /\
  map is_zero_reflexive recs = [Some false; Some true; Some false; Some true].
Proof.
  cbv zeta. split.
  - apply Forall_forall. intros x [<-|[<-|[<-|[<-|[]]]]];
      [exact (proj1 C60_cps_forgets_refuted)|exact drop_decided_true|apply fresh_true, bouncer_wf|exact (proj1 C60_ctl4_refuted)].
  - repeat split; vm_compute; reflexivity.
Qed.
Print Assumptions C61_categorize_partition.
Print Assumptions C61_categories_true.
Print Assumptions C61_infinite_quasihalts_refuted.
Print Assumptions C61_sort.
Print Assumptions C61_count.
Print Assumptions C61_count_cut.
Print Assumptions C61_count_refuted.
Print Assumptions C61_zero_reflexive.
