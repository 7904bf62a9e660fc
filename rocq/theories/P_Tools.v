(** * Proofs about the tools that go through files of records *)
Require Import ZArith List Lia Bool Arith Permutation Sorting.Sorted.
From Verif Require Import Spec_TM M_Turing_Machine M_Direct M_Tape M_Simulator M_Settings P_Stream P_SimLimited P_Macro
  P_Tape P_Simulator P_Settings P_Direct P_Quint P_Compute Prop_Macro Prop_Prover M_CTL P_CTL P_CTLTerm Prop_CTL
  M_CPS P_CPS Prop_CPS M_Filters P_Filters Prop_Filters M_LinRecur P_LinRecur Prop_LinRecur M_IO P_IO P_Files M_Tools.
Import ListNotations.
Open Scope Z_scope.

Lemma halts_not_nonhalting T k q s e t : halts_at T initial k q s e t -> ~ nonhalting T initial.
Proof.
  intros (i & c & w & d & -> & E & -> & -> & A & _) N. apply (N (S i)). rewrite steps_S, E. unfold step. now rewrite A.
Qed.

(** ** What the fields of a record say about its machine *)
Definition halt_true (T : table) (h : halt_status) : Prop :=
  h_decided h = true ->
  if h_halting h then
    exists k sc e t, h_steps h = Some (Z.of_nat k) /\ h_score h = Some (Z.of_nat sc) /\
      halts_at T initial k (h_state h) (h_symbol h) e t /\ score t sc
  else nonhalting T initial.
(** is_quasihalting is looked at by IO_Categorize whether or not is_decided is set *)
Definition quasi_status_true (T : table) (q : quasi_status) : Prop :=
  (q_halting q = true ->
     exists k, q_steps q = Some k /\ nonhalting T initial /\ quasi_true T (QHalt k (SRun (q_state q)))) /\
  (q_decided q = true -> q_halting q = false ->
     (exists k s x e t, halts_at T initial k s x e t) \/ (nonhalting T initial /\ quasi_true T QNot)).
(** the stored parameters of a successful CTL filter make it succeed again, with or without the
    macro machine with backsymbol *)
Definition ctl_true (tab : ttable) (info : ctl_kind -> option ctl_info) : Prop :=
  forall kind i, info kind = Some i -> exists use_backsymbol fuel,
    test_CTL tab (ctl_setting (i_block_size i) (i_offset i) use_backsymbol (Z.to_nat 10000) (Z.to_nat 1000)) kind fuel (i_cutoff i)
      = Some (true, i_iters i).
Definition record_true (r : tm_record) : Prop :=
  wf_ttable (t_states r) (t_symbols r) (t_tab r) /\ halt_true (table_of (t_tab r)) (t_halt r) /\
  quasi_status_true (table_of (t_tab r)) (t_quasi r) /\ ctl_true (t_tab r) (t_ctl r).

Lemma fresh_true tab n m : wf_ttable n m tab -> record_true (fresh_record tab n m).
Proof. intros W. split; [exact W|]. split; [discriminate|]. split; [split; discriminate|]. discriminate. Qed.

Lemma inf_true r why : record_true r -> nonhalting (table_of (t_tab r)) initial -> record_true (set_not_halting r why).
Proof. intros (W & H & Q & C) N. split; [exact W|]. split; [intros _; exact N|]. split; [exact Q|exact C]. Qed.
Lemma undecided_true r : record_true r -> record_true (quasi_undecided r).
Proof. intros (W & H & (Q1 & Q2) & C). split; [exact W|]. split; [exact H|]. split; [split; [exact Q1|discriminate]|exact C]. Qed.

(** ** Lin_Recur_Detect on a record *)
Lemma lin_recur_true fuel max fm r r' : max <> 1%nat -> record_true r -> lin_recur fuel max fm r = Some r' -> record_true r'.
Proof.
  intros N1 HT. pose proof HT as (W & H & Q & C). unfold lin_recur.
  destruct (C26_halting_exact _ _ _ fuel max fm W N1) as (_ & Hh & _ & _).
  destruct (lr_filter _ fuel max fm) as [[[[res|] b]|]|] eqn:E; try discriminate.
  - destruct (C28_lin_recur_quasihalt _ _ _ fuel max fm res b W E) as (q & -> & Nq & Tq).
    pose proof (proj1 (C25_lin_recurrence_true _ _ _ fuel max fm res _ W E)) as N. cbv zeta in N.
    intros X. injection X as <-. apply inf_true; [|destruct q; exact N].
    destruct q as [| |k [q|]]; cbn [put_quasi].
    + now apply undecided_true.
    + split; [exact W|]. split; [exact H|]. split; [|exact C]. split; [discriminate|]. intros _ _. right. auto.
    + split; [exact W|]. split; [exact H|]. split; [|exact C]. split; [|discriminate]. intros _. exists k. auto.
    + destruct Tq.
  - destruct b as [|k sc q x|q].
    + intros X. injection X as <-. exact HT.
    + destruct (Hh k sc q x eq_refl) as (s & e & t & -> & Ht & Hs). intros X. injection X as <-.
      split; [exact W|]. split; [|split; [|exact C]].
      * intros _. cbn. exists k, sc, e, t. auto.
      * split; [discriminate|]. intros _ _. left. eauto 8.
    + exfalso. unfold lr_filter in E.
      destruct (lin_detect_not_min (simple_machine (t_tab r)) fuel max) as [[[[r0|] b0]|]|] eqn:D; try discriminate.
      * destruct fm; [destruct (period_search _ _ _)|]; discriminate.
      * injection E as ->. pose proof (detect_ok _ _ _ W fuel max N1) as DK. rewrite D in DK. exact DK.
Qed.

(** ** the filters *)
Lemma ctl_filter_true fuel kind bs off cut ub r r' b : kind <> CTL4 -> record_true r ->
  ctl_filter fuel kind bs off cut ub r = Some (r', b) -> record_true r'.
Proof.
  intros K HT. unfold ctl_filter. destruct (Nat.eqb bs 1 || _) eqn:V; [|discriminate].
  assert (V' : (bs = 1 \/ off < bs)%nat).
  { apply orb_true_iff in V. destruct V as [V|V]; [left; now apply Nat.eqb_eq|right].
    apply andb_true_iff in V. now apply Nat.ltb_lt. }
  pose proof (ctl_setting_valid bs off ub (Z.to_nat 10000) (Z.to_nat 1000) V') as G.
  destruct (test_CTL _ _ kind fuel cut) as [[[|] i]|] eqn:E; [| |discriminate]; intros X; injection X as <- <-; [|exact HT].
  pose proof HT as (W & H & Q & C). pose proof (ctl_sound _ _ _ _ kind fuel cut i W G K E) as N.
  destruct (undecided_true _ (inf_true _ INF_CTL HT N)) as (W' & H' & Q' & _).
  split; [exact W'|]. split; [exact H'|]. split; [exact Q'|]. intros k i' Ei. cbn in Ei |- *. destruct (kind_eqb k kind) eqn:Ek; [|exact (C k i' Ei)].
  injection Ei as <-. assert (k = kind) as -> by (destruct k, kind; (reflexivity || discriminate)).
  exists ub, fuel. exact E.
Qed.
Lemma first_success_inv {A} (P : tm_record -> Prop) (f : A -> tm_record -> option (tm_record * bool)) l :
  (forall a r r' b, In a l -> P r -> f a r = Some (r', b) -> P r') ->
  forall r r' b, P r -> first_success f l r = Some (r', b) -> P r'.
Proof.
  induction l as [|a l IH]; intros Hf r r' b HP; cbn [first_success].
  - intros X. injection X as <- <-. exact HP.
  - destruct (f a r) as [[r1 [|]]|] eqn:E; [| |discriminate].
    + intros X. injection X as <- <-. eapply Hf; [left; reflexivity|exact HP|exact E].
    + apply IH; [|eapply Hf; [left; reflexivity|exact HP|exact E]]. intros. eapply Hf; [right|..]; eassumption.
Qed.
Lemma ctl_all_inv (P : tm_record -> Prop) fuel o :
  (forall bs off r r' b, P r -> ctl_filter fuel (co_kind o) bs off (co_cutoff o) (negb (co_no_backsymbol o)) r = Some (r', b) -> P r') ->
  forall r r' b, P r -> ctl_filter_all fuel o r = Some (r', b) -> P r'.
Proof.
  intros H. assert (B : forall bs r r' b, P r -> ctl_block_size fuel o bs r = Some (r', b) -> P r').
  { intros bs r r' b HP. unfold ctl_block_size. destruct (co_all_offsets o); [|now apply H].
    apply first_success_inv; [|exact HP]. intros off r1 r2 b' _. apply H. }
  intros r r' b HP. unfold ctl_filter_all. destruct (0 <? co_max_block o)%nat.
  - apply first_success_inv; [|exact HP]. intros bs r1 r2 b' _. apply B.
  - destruct (co_block_size o); [now apply B|discriminate].
Qed.
Lemma ctl_all_true fuel o r r' b : co_kind o <> CTL4 -> record_true r -> ctl_filter_all fuel o r = Some (r', b) -> record_true r'.
Proof. intros K. apply ctl_all_inv. intros bs off r1 r2 b'. now apply ctl_filter_true. Qed.
(** ** which machine it is does not change *)
Definition same_machine (r r' : tm_record) : Prop := t_tab r' = t_tab r /\ t_states r' = t_states r /\ t_symbols r' = t_symbols r.
Lemma same_refl r : same_machine r r.
Proof. repeat split. Qed.
Lemma ctl_all_same fuel o r r' b : ctl_filter_all fuel o r = Some (r', b) -> same_machine r r'.
Proof.
  intros E. revert E. apply (ctl_all_inv (same_machine r)); [|apply same_refl]. intros bs off r1 r2 b' (S1 & S2 & S3).
  unfold ctl_filter. destruct (_ || _); [|discriminate].
  destruct (test_CTL _ _ _ _ _) as [[[|] i]|]; [| |discriminate]; intros X; injection X as <- <-; repeat split; auto.
Qed.


Definition tool_sound (x : tool) : Prop :=
  match x with
  | Tool_ctl o => co_kind o <> CTL4
  | Tool_cps o => (1 <= po_min_block o)%nat
  | Tool_reverse => True
  end.

Section Orders.
  Variable ord_c : list (@cfg nat sstate) -> list (@cfg nat sstate).
  Variable ord_b : list (list nat) -> list (list nat).
  Hypothesis Hc : forall l x, In x (ord_c l) <-> In x l.
  Hypothesis Hb : forall l x, In x (ord_b l) <-> In x l.

  Lemma tool_same fuel x r r' : apply_tool fuel ord_c ord_b x r = Some r' -> same_machine r r'.
  Proof.
    destruct x as [o|o|]; cbn [apply_tool].
    - destruct (ctl_filter_all fuel o r) as [[r1 b]|] eqn:E; [|discriminate]. intros X. injection X as <-. exact (ctl_all_same _ _ _ _ _ E).
    - unfold cps_record. destruct (cps_filter_all _ _ _ _ _ _ _ _ _ _) as [[|]|]; [| |discriminate]; intros X; injection X as <-; repeat split.
    - unfold reverse_record. destruct (is_infinite _ _ _) as [[|]|]; [| |discriminate]; intros X; injection X as <-; repeat split.
  Qed.
  Lemma tool_true fuel x r r' : tool_sound x -> record_true r -> apply_tool fuel ord_c ord_b x r = Some r' -> record_true r'.
  Proof.
    intros S HT. pose proof HT as (W & _). destruct x as [o|o|]; cbn [apply_tool tool_sound] in *.
    - destruct (ctl_filter_all fuel o r) as [[r1 b]|] eqn:E; [|discriminate]. intros X. injection X as <-. exact (ctl_all_true _ _ _ _ _ S HT E).
    - unfold cps_record.
      destruct (C33_cps_filter_all_sound _ _ _ ord_c ord_b (po_min_block o) (po_max_block o) (po_max_window o)
                  (po_max_steps o) (po_max_iters o) (po_max_configs o) (po_max_edges o) W Hc Hb S) as (b & E & N).
      cbn [t_tab clear_proto fresh_record]. rewrite E. destruct b; intros X; injection X as <-.
      + apply inf_true; [now apply fresh_true|now apply N].
      + now apply fresh_true.
    - unfold reverse_record. destruct (is_infinite _ _ _) as [[|]|] eqn:E; [| |discriminate]; intros X; injection X as <-; [|exact HT].
      apply undecided_true, inf_true; [exact HT|]. exact (C35_reverse_engineer_sound _ _ _ W E).
  Qed.

  (** *** decisions are kept, except by CPS_Filter *)
  Definition keeps (r r' : tm_record) : Prop :=
    h_decided (t_halt r) = true ->
    h_decided (t_halt r') = true /\ h_halting (t_halt r') = h_halting (t_halt r) /\
    (h_halting (t_halt r) = true -> t_halt r' = t_halt r).
  Lemma keeps_refl r : keeps r r.
  Proof. intros H. auto. Qed.
  Lemma keeps_trans a b c : keeps a b -> keeps b c -> keeps a c.
  Proof.
    intros H1 H2 D. destruct (H1 D) as (D1 & E1 & F1). destruct (H2 D1) as (D2 & E2 & F2). split; [exact D2|]. split; [congruence|].
    intros X. rewrite F2 by congruence. now apply F1.
  Qed.
  Lemma inf_keeps r why : record_true r -> nonhalting (table_of (t_tab r)) initial -> keeps r (set_not_halting r why).
  Proof.
    intros (_ & H & _) N D. specialize (H D). cbn [set_not_halting t_halt h_decided h_halting]. destruct (h_halting (t_halt r)) eqn:X.
    2: { split; [reflexivity|]. split; [reflexivity|discriminate]. }
    destruct H as (k & sc & e & t & _ & _ & Hh & _). exfalso. exact (halts_not_nonhalting _ _ _ _ _ _ Hh N).
  Qed.
  Lemma tool_keeps fuel x r r' : tool_sound x -> (forall o, x <> Tool_cps o) -> record_true r ->
    apply_tool fuel ord_c ord_b x r = Some r' -> keeps r r'.
  Proof.
    intros S NC HT. pose proof HT as (W & _). destruct x as [o|o|]; cbn [apply_tool tool_sound] in *; [|now destruct (NC o)|].
    - destruct (ctl_filter_all fuel o r) as [[r1 b]|] eqn:E; [|discriminate]. intros X. injection X as <-.
      apply (ctl_all_inv (fun y => record_true y /\ keeps r y) fuel o) with (b := b) (r := r); [|split; [exact HT|apply keeps_refl]|exact E].
      intros bs off y z c (Ty & Ky) F. pose proof (ctl_filter_true _ _ _ _ _ _ _ _ _ S Ty F) as Tz. split; [exact Tz|].
      eapply keeps_trans; [exact Ky|]. clear Ky E. revert F. unfold ctl_filter. destruct (Nat.eqb bs 1 || _) eqn:V; [|discriminate].
      destruct (test_CTL _ _ _ _ _) as [[[|] i]|] eqn:E; [| |discriminate]; intros X; injection X as <- <-; [|apply keeps_refl].
      assert (N : nonhalting (table_of (t_tab y)) initial).
      { destruct Tz as (_ & Hz & _). exact (Hz eq_refl). }
      exact (inf_keeps y INF_CTL Ty N).
    - unfold reverse_record. destruct (is_infinite _ _ _) as [[|]|] eqn:E; [| |discriminate]; intros X; injection X as <-; [|apply keeps_refl].
      exact (inf_keeps r INF_REVERSE_ENGINEER HT (C35_reverse_engineer_sound _ _ _ W E)).
  Qed.

  (** *** files *)
  Lemma filter_file_spec f recs : forall out b, filter_file f recs = (out, b) ->
    Forall2 (fun r r' => f r = Some r') (firstn (length out) recs) out /\ (length out <= length recs)%nat /\
    (b = true <-> length out = length recs).
  Proof.
    induction recs as [|r recs IH]; cbn [filter_file]; intros out b.
    - intros X. injection X as <- <-. cbn. split; [constructor|]. split; [lia|]. tauto.
    - destruct (f r) as [r'|] eqn:E; [destruct (filter_file f recs) as (o1, b1)|]; intros X; injection X as <- <-.
      + destruct (IH o1 b1 eq_refl) as (F & L1 & B). cbn. split; [constructor; auto|]. split; [lia|]. rewrite B. lia.
      + cbn. split; [constructor|]. split; [lia|]. split; discriminate.
  Qed.
  Lemma filter_file_finished f recs out : filter_file f recs = (out, true) -> Forall2 (fun r r' => f r = Some r') recs out.
  Proof.
    intros E. destruct (filter_file_spec f recs out true E) as (F & _ & B). rewrite (proj1 B eq_refl), firstn_all in F. exact F.
  Qed.
  Lemma filter_file_total f recs : (forall r, In r recs -> f r <> None) -> exists out, filter_file f recs = (out, true).
  Proof.
    induction recs as [|r recs IH]; intros H; cbn [filter_file]; [eauto|].
    destruct (f r) eqn:E; [|now destruct (H r (or_introl eq_refl))]. destruct IH as (out & ->); [|eauto]. intros x Hx. apply H. now right.
  Qed.
End Orders.
