(** * Properties C29 - C32: the CTL filters *)
Require Import ZArith List Lia Bool Arith.
From Verif Require Import Spec_TM M_Turing_Machine M_Direct M_Tape M_Simulator M_Settings P_Stream P_SimLimited P_Macro
  P_Tape P_Simulator P_Settings P_Direct P_Quint P_Compute Prop_Macro Prop_Prover M_CTL P_CTL P_CTLTerm.
Import ListNotations.
Open Scope Z_scope.

Lemma ctl_sound n m tab g k fuel cutoff i : wf_ttable n m tab -> valid_setting g = true ->
  k <> CTL4 -> test_CTL tab g k fuel cutoff = Some (true, i) -> nonhalting (table_of tab) initial.
Proof.
  intros W V K. unfold test_CTL.
  apply (with_machine_prop tab g _ _ (fun o => o = Some (true, i) -> nonhalting (table_of tab) initial)
           (setting_exact n m tab g W V)).
  intros Sym St M H E. apply (test_machine_ok _ _ M k fuel cutoff i H E). intros s _. split; intros Q; contradiction.
Qed.

Lemma ctl_setting_valid bs off ub mb mk : (bs = 1 \/ off < bs)%nat -> valid_setting (ctl_setting bs off ub mb mk) = true.
Proof.
  intros H. unfold ctl_setting. destruct (Nat.eqb_spec bs 1); [now destruct ub|].
  destruct H as [|H]; [contradiction|].
  destruct ub; cbn [valid_setting]; apply andb_true_iff; split; apply Nat.ltb_lt; lia.
Qed.

(** ** C29 *)

(** If CTL1 (languages A-star) reports success after any cutoff, on the machine itself or on
    the block or backsymbol machine made from it, the machine never halts. *)
Theorem C29_ctl1_sound :
  forall n m tab block_size offset use_backsymbol block_limit back_limit fuel cutoff iters, wf_ttable n m tab ->
  (block_size = 1 \/ offset < block_size)%nat ->
  test_CTL tab (ctl_setting block_size offset use_backsymbol block_limit back_limit) CTL1 fuel cutoff = Some (true, iters) ->
  nonhalting (table_of tab) initial.
Proof.
  intros n m tab bs off ub mb mk fuel cutoff i W V. apply (ctl_sound n m); [exact W| |discriminate].
  now apply ctl_setting_valid.
Qed.

(** ** C30 *)

(** The same for CTL2 (languages A-star B). *)
Theorem C30_ctl2_sound :
  forall n m tab block_size offset use_backsymbol block_limit back_limit fuel cutoff iters, wf_ttable n m tab ->
  (block_size = 1 \/ offset < block_size)%nat ->
  test_CTL tab (ctl_setting block_size offset use_backsymbol block_limit back_limit) CTL2 fuel cutoff = Some (true, iters) ->
  nonhalting (table_of tab) initial.
Proof.
  intros n m tab bs off ub mb mk fuel cutoff i W V. apply (ctl_sound n m); [exact W| |discriminate].
  now apply ctl_setting_valid.
Qed.

(** ** C31 *)

(** The same for CTL3 (languages A B-star). *)
Theorem C31_ctl3_sound :
  forall n m tab block_size offset use_backsymbol block_limit back_limit fuel cutoff iters, wf_ttable n m tab ->
  (block_size = 1 \/ offset < block_size)%nat ->
  test_CTL tab (ctl_setting block_size offset use_backsymbol block_limit back_limit) CTL3 fuel cutoff = Some (true, iters) ->
  nonhalting (table_of tab) initial.
Proof.
  intros n m tab bs off ub mb mk fuel cutoff i W V. apply (ctl_sound n m); [exact W| |discriminate].
  now apply ctl_setting_valid.
Qed.

(** ** C32 *)

(** CTL4 as written is not sound: it looks at the run next to the head (index -2) where it
    means the run next to the blanks (index 1).  For the machine below it reports success,
    but the machine halts. *)
Definition bad4_rows : list quint :=
  let q a b c d e := Quint a b (Some c) d (SRun e) in
  [q 0 0 1 L 1; q 1 0 1 L 2; q 2 0 1 L 3; q 3 0 1 L 4; q 4 0 1 L 5; q 5 0 2 L 6; q 6 0 3 L 7; q 7 0 0 R 8;
   q 8 3 3 R 8; q 8 2 2 R 8; q 8 1 1 R 9; q 9 1 1 R 10; q 10 0 0 R 10; Quint 10 1 (Some 1) R SHalt]%nat.
Definition bad4 : ttable := match tm_from_quintuples bad4_rows 11 4 with Some t => t | None => [] end.
Theorem C32_ctl4_refuted :
  wf_ttable 11 4 bad4 /\
  test_CTL bad4 (ctl_setting 1 0 false 0 0) CTL4 20 7 = Some (true, 0%nat) /\
  exists t, halts_at (table_of bad4) initial 13 10 1 true t.
Proof.
  split; [apply (quintuples_wf bad4_rows); [lia|lia|reflexivity]|]. split; [vm_compute; reflexivity|].
  apply halts_check_ok. vm_compute. reflexivity.
Qed.

(** The half tape on which the index does no harm: the run next to the blanks has at most
    two symbols, or the second run from the head has more than two. *)
Definition harmless {Sym} (h : list (blk Z Sym)) : bool :=
  match nth_error (rev h) 1, nth_error h 1 with
  | Some far, Some near => negb (more 2 far) || more 2 near
  | _, _ => true
  end.
Definition harmless_at (tab : ttable) (g : setting) (cutoff : Z) : bool :=
  with_machine tab g (fun _ _ M =>
    match sim_seek M no_prover cutoff (tt, sim_init zops M) with
    | Some (_, s) => harmless (ct_l (s_tape s)) && harmless (ct_r (s_tape s))
    | None => false
    end).

Lemma harmless_fits {Sym} (h : list (blk Z Sym)) : harmless h = true -> fits CTL4 h.
Proof.
  unfold harmless, fits, pyix. intros H _ b Eb M2. rewrite Eb in H.
  destruct (nth_error h 1) as [c|] eqn:Ec.
  - exists c. split; [reflexivity|]. rewrite M2 in H. exact H.
  - exfalso. apply nth_error_None in Ec. assert (N : nth_error (rev h) 1 <> None) by congruence.
    apply nth_error_Some in N. rewrite rev_length in N. lia.
Qed.
Lemma harmless_sound T {Sym St} (M : machine Sym St) fuel cutoff i : sound_machine False T Sym St M ->
  match sim_seek M no_prover cutoff (tt, sim_init zops M) with
  | Some (_, s) => harmless (ct_l (s_tape s)) && harmless (ct_r (s_tape s))
  | None => false
  end = true ->
  test_machine M CTL4 fuel cutoff = Some (true, i) -> nonhalting T initial.
Proof.
  intros S H E. apply (test_machine_ok _ _ M CTL4 fuel cutoff i S E). intros s Es. rewrite Es in H.
  apply andb_true_iff in H as [H1 H2]. split; now apply harmless_fits.
Qed.

(** Full claim: as C29 for CTL4; refuted above.  Missing here: tapes at the cutoff on which
    the wrong index matters. *)
Theorem C32_ctl4_sound_partial :
  forall n m tab block_size offset use_backsymbol block_limit back_limit fuel cutoff iters, wf_ttable n m tab ->
  (block_size = 1 \/ offset < block_size)%nat ->
  let g := ctl_setting block_size offset use_backsymbol block_limit back_limit in
  harmless_at tab g cutoff = true ->
  test_CTL tab g CTL4 fuel cutoff = Some (true, iters) ->
  nonhalting (table_of tab) initial.
Proof.
  intros n m tab bs off ub mb mk fuel cutoff i W V g. apply (ctl_setting_valid bs off ub mb mk) in V. fold g in V.
  pose proof (setting_exact n m tab g W V) as S. unfold harmless_at, test_CTL. clearbody g.
  destruct g; cbn [with_machine] in *; apply harmless_sound; exact S.
Qed.

(** ** Each of the four tests ends: after at most as many rounds as there are facts "in this state,
    facing this way, this symbol can be in this set" - two directions, six sets - it answers, without
    an exception, whatever the machine, the macro machine and the cutoff. *)
Theorem C29_ctl_answers :
  forall n m tab block_size offset (use_backsymbol : bool) block_limit back_limit kind fuel cutoff, wf_ttable n m tab ->
  (block_size = 1 \/ offset < block_size)%nat ->
  let symbols := (m ^ block_size)%nat in
  let states := (n * S block_size * (if use_backsymbol then symbols else 1))%nat in
  (2 * states * S (6 * symbols) < fuel)%nat ->
  exists answer iters,
    test_CTL tab (ctl_setting block_size offset use_backsymbol block_limit back_limit) kind fuel cutoff = Some (answer, iters).
Proof.
  intros n m tab bs off ub mb mk kind fuel cutoff W V symbols states F. apply (test_CTL_total n m); [exact W|now apply ctl_setting_valid|].
  eapply Nat.le_lt_trans; [|exact F]. unfold states, symbols, ctl_setting.
  destruct (Nat.eqb_spec bs 1) as [->|]; destruct ub; cbn [num_states num_symbols]; rewrite ?Nat.pow_1_r; try lia; apply Nat.mul_le_mono; nia.
Qed.

(** ** examples *)
Lemma bouncer_wf : wf_ttable 2 2 bouncer.
Proof. apply (quintuples_wf bouncer_rows); [lia|lia|reflexivity]. Qed.
(** success on the machine, on blocks of two and on the backsymbol machine, at several cutoffs *)
Definition tries (tab : ttable) (k : ctl_kind) : list (option bool) :=
  map (fun x : nat * bool * Z => let '(bs, ub, cut) := x in
         option_map fst (test_CTL tab (ctl_setting bs 0 ub 100 100) k 20 cut))
    [(1%nat, false, 20); (1%nat, true, 20); (2%nat, false, 20); (3%nat, true, 50)].
Example C29_example : tries bouncer CTL1 = repeat (Some true) 4.
Proof. vm_compute. reflexivity. Qed.
Example C30_example : tries bouncer CTL2 = repeat (Some true) 4.
Proof. vm_compute. reflexivity. Qed.
Example C31_example : tries bouncer CTL3 = repeat (Some true) 4.
Proof. vm_compute. reflexivity. Qed.
Example C32_example : tries bouncer CTL4 = repeat (Some true) 4 /\
  harmless_at bouncer (ctl_setting 1 0 false 100 100) 20 = true /\ harmless_at bouncer (ctl_setting 2 0 false 100 100) 20 = true.
Proof. vm_compute. auto. Qed.
(** on a machine that halts later none of the four succeeds *)
Example C29_example_halting : map (fun k => option_map fst (test_CTL bb2 SBase k 20 3)) [CTL1; CTL2; CTL3; CTL4] = repeat (Some false) 4.
Proof. vm_compute. reflexivity. Qed.

Print Assumptions C29_ctl1_sound.
Print Assumptions C30_ctl2_sound.
Print Assumptions C31_ctl3_sound.
Print Assumptions C32_ctl4_refuted.
Print Assumptions C32_ctl4_sound_partial.
Print Assumptions C29_ctl_answers.
