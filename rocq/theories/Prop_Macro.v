(** * Properties C03 - C09: machines and macro machines *)
Require Import ZArith List Lia Bool Arith.
From Verif Require Import Spec_TM M_Turing_Machine P_Stream P_SimLimited P_Macro P_Repeat
     P_Quint P_Window P_MacroSpec P_Compute.
Import ListNotations.
Open Scope Z_scope.

(** ** A machine used by the examples: the 2-state busy beaver with the halting
    cell given explicitly, written as quintuples. *)
Definition bb2_rows : list quint :=
  [Quint 0 0 (Some 1%nat) R (SRun 1); Quint 0 1 (Some 1%nat) L (SRun 1);
   Quint 1 0 (Some 1%nat) L (SRun 0); Quint 1 1 (Some 1%nat) R SHalt].
Definition bb2 : ttable :=
  match tm_from_quintuples bb2_rows 2 2 with Some t => t | None => [] end.
Example bb2_built : tm_from_quintuples bb2_rows 2 2 = Some bb2.
Proof. reflexivity. Qed.
Lemma bb2_wf : wf_ttable 2 2 bb2.
Proof. apply (quintuples_wf bb2_rows); [lia|lia|reflexivity]. Qed.
Example bb2_halts : halts_check (table_of bb2) initial 5 1 1 true = true.
Proof. reflexivity. Qed.

(** ** C03 *)

(** The cell of a machine built from quintuples is the last row given for it,
    or "undefined: write 1, go right, stop". *)
Theorem C03_quintuple_machine :
  forall qs n m tab, tm_from_quintuples qs n m = Some tab ->
  forall i j, (i < n)%nat -> (j < m)%nat -> forall d,
  table_of tab i j = match last_row qs i j with
                     | Some q => row_action q
                     | None => Stop 1 R false
                     end /\
  exists t, m_trans (simple_machine tab) j (SRun i) d = Some t /\
    t_steps t = 1%nat /\
    match last_row qs i j with
    | Some q => Some (t_sym t) = q_symbol_out q /\ t_dir t = q_dir_out q /\
                t_state t = q_state_out q /\
                t_cond t = match q_state_out q with SRun _ => RUNNING | SHalt => HALT end
    | None => t_sym t = 1%nat /\ t_dir t = R /\ t_state t = SHalt /\ t_cond t = UNDEFINED
    end.
Proof.
  intros qs n m tab E i j Hi Hj d.
  split; [exact (quintuples_table qs n m tab i j E Hi Hj)|].
  pose proof (quintuples_cells qs n m tab i j E Hi Hj) as Hc.
  unfold cell in Hc. simpl. unfold simple_trans. unfold ttable, trans_row in *.
  destruct (nth_error tab i) as [row|]; [|discriminate]. eexists. split; [exact Hc|].
  destruct (last_row qs i j) as [q|] eqn:El; [|repeat split].
  apply last_row_spec in El. destruct El as (_ & _ & _ & Ho).
  unfold row_trans. destruct (q_symbol_out q); [|congruence].
  destruct (q_state_out q); repeat split.
Qed.

(** Construction succeeds exactly when every row is in range. *)
Theorem C03_quintuple_accepts :
  forall qs n m, tm_from_quintuples qs n m <> None <-> Forall (row_in_range n m) qs.
Proof. exact quintuples_accepts. Qed.

Example C03_example : (* a later row overrides an earlier one, cell (1,1) is undefined *)
  let qs := [Quint 0 0 (Some 1%nat) R (SRun 1); Quint 0 0 (Some 0%nat) L SHalt] in
  exists tab, tm_from_quintuples qs 2 2 = Some tab /\
    table_of tab 0%nat 0%nat = Stop 0 L true /\ table_of tab 1%nat 1%nat = Stop 1 R false.
Proof. eexists. split; [reflexivity|]. split; reflexivity. Qed.

(** ** C04 *)

(** Window simulation of a simple machine: the base configuration [c] has its head
    [pos] cells into the window [o, o + k), which shows [tape].  The call never
    raises, and its answer is what the machine does ([window_answer]). *)
Theorem C04_window_simulation_exact :
  forall n m tab, wf_ttable n m tab ->
  forall o k c max tape pos d,
  (st c < n)%nat -> hd c = o + pos -> 0 <= pos < Z.of_nat k ->
  length tape = k -> (forall a, In a tape -> (a < m)%nat) -> shows o tape (tp c) ->
  exists t, sim_limited (simple_machine tab) (SRun (st c)) tape pos d max = Some t /\
            length (t_sym t) = k /\ window_answer tab o k max c t.
Proof.
  intros n m tab W o k c max tape pos d H1 H2 H3 H4 H5 H6.
  exact (window_exact n m tab W o k c max (st c) tape pos d eq_refl H1 H2 H3 H4 H5 H6).
Qed.

Example C04_example :
  exists t, sim_limited (simple_machine bb2) (SRun 0) [0; 0; 0; 0]%nat 1 R 10 = Some t /\
    t_cond t = RUNNING /\ t_steps t = 4%nat /\ t_dir t = L /\ t_sym t = [1; 1; 1; 0]%nat /\
    window_answer bb2 0 4 10 (Cfg 0 1 (fun _ => 0%nat)) t.
Proof.
  assert (A : forall a, In a [0; 0; 0; 0]%nat -> a = 0%nat) by (simpl; intuition).
  assert (Sh : shows 0 [0; 0; 0; 0]%nat (fun _ => 0%nat)).
  { intros i a Hi. symmetry. apply A. eapply nth_error_In; eauto. }
  destruct (C04_window_simulation_exact 2 2 bb2 bb2_wf 0 4 (Cfg 0 1 (fun _ => 0%nat)) 10
              [0; 0; 0; 0]%nat 1 R ltac:(simpl; lia) eq_refl ltac:(lia) eq_refl
              ltac:(intros a Ha; apply A in Ha; lia) Sh) as (t & E & _ & H).
  exists t. split; [exact E|]. vm_compute in E. injection E as <-. repeat split; auto.
Qed.

(** ** C05 *)

(** One transition of a block machine, from any tape of blocks, for any block size
    and any entry (including the offset start). *)
Theorem C05_block_machine_exact :
  forall n m tab, wf_ttable n m tab ->
  forall k, (0 < k)%nat -> forall offset max C c,
  block_denotes n m k C c ->
  exists t o,
    m_trans (block_machine (simple_machine tab) k offset max) (facing C) (d_st C) (d_dir C) = Some t /\
    blocks_at k (d_l C) (d_r C) o (tp c) /\
    block_answer n m tab k C c o max t.
Proof. intros n m tab W k Hk offset max C c H. exact (block_exact n m tab W k Hk max C c H). Qed.

(** The same for a block machine over any machine that is itself sound. *)
Theorem C05_block_machine_layer :
  forall Sym St (Gd : Prop) T (M : machine Sym St) Rp halted k offset max,
  (0 < k)%nat -> (offset < k)%nat ->
  msound Gd T M Rp halted -> (Gd -> no_give_up M Rp) -> seen_wf M Rp ->
  msound Gd T (block_machine M k offset max) (Rblock M Rp k) (bhalted halted).
Proof.
  intros Sym St Gd T M Rp halted k offset max Hk Ho MS NG SW.
  exact (block_msound Gd T M Rp halted k Hk offset Ho max MS NG SW).
Qed.

Lemma blank_block_denotes k offset : (0 < k)%nat -> (offset < k)%nat ->
  block_denotes 2 2 k
    (DCfg (fun _ => repeat 0%nat k) (fun _ => repeat 0%nat k)
          (match offset with O => Plain (SRun 0) | _ => OffsetStart (SRun 0) offset end) R)
    (Cfg 0 (Z.of_nat offset) (fun _ => 0%nat)).
Proof.
  intros Hk Ho. split; [destruct offset; reflexivity|]. split; [simpl; lia|].
  split; [destruct offset; simpl; auto|]. split.
  - intros i a H. simpl in H. destruct H as [H|H]; apply repeat_spec in H; lia.
  - exists 0. split.
    + intros i. simpl. rewrite repeat_length. repeat split; auto;
        intros j a Hj; apply nth_error_In, repeat_spec in Hj; auto.
    + destruct offset; simpl; lia.
Qed.

Example C05_example :
  exists t o, m_trans (block_machine (simple_machine bb2) 3 1 10)
                    [0; 0; 0]%nat (OffsetStart (SRun 0) 1) R = Some t /\
    t_cond t = RUNNING /\ t_steps t = 4%nat /\ t_sym t = [1; 1; 1]%nat /\ t_dir t = L /\
    block_answer 2 2 bb2 3 (DCfg (fun _ => [0; 0; 0]%nat) (fun _ => [0; 0; 0]%nat)
                             (OffsetStart (SRun 0) 1) R) (Cfg 0 1 (fun _ => 0%nat)) o 10 t.
Proof.
  destruct (C05_block_machine_exact 2 2 bb2 bb2_wf 3 ltac:(lia) 1 10 _ _
             (blank_block_denotes 3 1 ltac:(lia) ltac:(lia))) as (t & o & E & _ & H).
  exists t, o. split; [exact E|]. vm_compute in E. injection E as <-. repeat split; auto.
Qed.

(** ** C06 *)

Theorem C06_backsymbol_machine_exact :
  forall n m tab, wf_ttable n m tab ->
  forall max C c, back_denotes n m C c ->
  exists t, m_trans (back_machine (simple_machine tab) max) (facing C) (d_st C) (d_dir C) = Some t /\
            back_answer n m tab C c max t.
Proof. intros n m tab W max C c H. exact (back_exact n m tab W max C c H). Qed.

Theorem C06_backsymbol_machine_layer :
  forall Sym St (Gd : Prop) T (M : machine Sym St) Rp halted max,
  msound Gd T M Rp halted -> (Gd -> no_give_up M Rp) -> seen_wf M Rp ->
  msound Gd T (back_machine M max) (Rback Rp) (khalted halted).
Proof.
  intros Sym St Gd T M Rp halted max MS NG SW. exact (back_msound Gd T M Rp halted max MS NG SW).
Qed.

Example C06_example :
  exists t, m_trans (back_machine (simple_machine bb2) 10) 0%nat (Back (SRun 0) 1%nat) R = Some t /\
    t_cond t = RUNNING /\
    back_answer 2 2 bb2 (DCfg (fun _ => 0%nat) (fun _ => 0%nat) (Back (SRun 0) 1%nat) R)
      (Cfg 0 0 (fun z => if z =? -1 then 1%nat else 0%nat)) 10 t.
Proof.
  assert (HD : back_denotes 2 2 (DCfg (fun _ => 0%nat) (fun _ => 0%nat) (Back (SRun 0) 1%nat) R)
                (Cfg 0 0 (fun z => if z =? -1 then 1%nat else 0%nat))).
  { split; [reflexivity|]. split; [simpl; lia|]. split; [simpl; lia|].
    split; [intros; simpl; lia|]. split; [reflexivity|]. intros i.
    cbn [d_dir hd tp d_l d_r].
    split; match goal with |- (if ?x then _ else _) = _ => destruct x eqn:E end; auto;
      apply Z.eqb_eq in E; lia. }
  destruct (C06_backsymbol_machine_exact 2 2 bb2 bb2_wf 10 _ _ HD) as (t & E & H).
  exists t. split; [exact E|]. vm_compute in E. injection E as <-. split; [reflexivity|exact H].
Qed.

(** ** C07 *)

(** As stated the property is false: when simulating a block is abandoned at its
    step limit, the enclosing backsymbol simulation can take the half-finished
    configuration for a repetition.  The machine bounces between two blocks until
    the enclosing simulation saves a configuration, then spends more steps than
    allowed inside a block, being in the saved state when abandoned; the real
    machine halts right after. *)
Definition c07_rows : list quint :=
  map (fun i => Quint (2 * i) 0 (Some 0%nat) L (SRun (2 * i + 1))) (seq 0 65) ++
  [Quint 1 0 (Some 1%nat) R (SRun 2)] ++
  map (fun i => Quint (2 * i + 1) 1 (Some 1%nat) R (SRun (2 * i + 2))) (seq 1 63) ++
  [Quint 129 1 (Some 1%nat) L (SRun 130); Quint 130 0 (Some 0%nat) R (SRun 131);
   Quint 131 1 (Some 1%nat) L (SRun 132); Quint 132 0 (Some 0%nat) R (SRun 128);
   Quint 128 1 (Some 1%nat) R SHalt].

Theorem C07_spurious_repeat_refuted :
  exists rows n m tab k max_block max_back,
    tm_from_quintuples rows n m = Some tab /\ (0 < k)%nat /\
    (exists t, m_trans (back_machine (block_machine (simple_machine tab) k 0 max_block) max_back)
                 (repeat 0%nat k) (Back (Plain (SRun 0)) (repeat 0%nat k)) R = Some t /\
               t_cond t = INF_REPEAT) /\
    exists steps tape, halts_at (table_of tab) initial steps 128 1 true tape.
Proof.
  exists c07_rows, 133%nat, 2%nat,
    (match tm_from_quintuples c07_rows 133 2 with Some t => t | None => [] end),
    2%nat, 3%nat, 1000%nat.
  split; [vm_compute; reflexivity|]. split; [lia|]. split.
  - eexists. split; vm_compute; reflexivity.
  - exists (S 133). apply halts_check_ok. vm_compute. reflexivity.
Qed.

(** It is false with the limits of the code, 10000 and 1000 (Turing_Machine.py lines 358
    and 451), too: here the machine counts to 4998 inside a block. *)
Definition delay_rows : list quint :=
  (let q a b c d e := Quint a b (Some c) d (SRun e) in
  map (fun i => q (2 * i) 0 0 L (2 * i + 1)) (seq 0 65) ++
  [q 1 0 1 R 2] ++
  map (fun i => q (2 * i + 1) 1 1 R (2 * i + 2)) (seq 1 63) ++
  [q 129 1 1 L 130; q 130 0 0 L 131; q 131 0 0 R 132; q 132 0 0 L 133] ++
  map (fun s => q 133 s (S s) R 134) (seq 0 97) ++ [q 133 97 0 R 135] ++
  map (fun s => q 134 s s L 133) (seq 0 51) ++
  map (fun s => q 135 s (S s) L 133) (seq 0 50) ++ [q 135 50 0 L 136; q 136 0 0 R 128])%nat.
Definition delay_tab : ttable :=
  match tm_from_quintuples delay_rows 137 98 with Some t => t | None => [] end.
Lemma delay_wf : wf_ttable 137 98 delay_tab.
Proof.
  unfold delay_tab.
  assert (H : match tm_from_quintuples delay_rows 137 98 with Some _ => true | None => false end = true)
    by vm_cast_no_check (@eq_refl bool true).
  destruct (tm_from_quintuples delay_rows 137 98) eqn:E; [|discriminate].
  apply (quintuples_wf delay_rows); [lia|lia|exact E].
Qed.
Lemma delay_halts : exists tape, halts_at (table_of delay_tab) initial (Z.to_nat 10132) 129 0 false tape.
Proof. change (Z.to_nat 10132) with (S (Z.to_nat 10131)). apply halts_check_ok. vm_cast_no_check (@eq_refl bool true). Qed.
Theorem C07_default_limits_refuted :
  (exists t, m_trans (back_machine (block_machine (simple_machine delay_tab) 3 0 (Z.to_nat 10000)) (Z.to_nat 1000))
               (repeat 0%nat 3) (Back (Plain (SRun 0)) (repeat 0%nat 3)) R = Some t /\
             t_cond t = INF_REPEAT) /\
  exists tape, halts_at (table_of delay_tab) initial (Z.to_nat 10132) 129 0 false tape.
Proof.
  split; [|exact delay_halts].
  set (x := m_trans _ _ _ _).
  assert (H : match x with Some t => match t_cond t with INF_REPEAT => true | _ => false end | None => false end = true)
    by vm_cast_no_check (@eq_refl bool true).
  destruct x as [t|]; [|discriminate]. exists t. split; [reflexivity|]. destruct (t_cond t); congruence.
Qed.

(** With a step limit for blocks that covers every block content - three times the
    number of (state, direction, position, content) combinations, at least 384 -
    the property holds for every machine, every block size and every limit of the
    backsymbol layer. *)
Theorem C07_no_spurious_repeat_partial :
  forall n m tab, wf_ttable n m tab ->
  forall k offset max_block max_back,
  (0 < k)%nat -> (offset < k)%nat -> enough_loops n m k max_block ->
  forall C c, Rback (Rblock (simple_machine tab) (Rsimple n m) k) C c ->
  forall t, m_trans (back_machine (block_machine (simple_machine tab) k offset max_block) max_back)
              (facing C) (d_st C) (d_dir C) = Some t ->
  t_cond t = INF_REPEAT -> nonhalting (table_of tab) c.
Proof.
  intros n m tab W k offset max_block max_back Hk Ho He C c HR t Ht Hc.
  pose proof (simple_msound True n m tab W) as MS.
  pose proof (simple_no_give_up n m tab W) as NG.
  pose proof (simple_seen_wf n m tab W) as SW.
  assert (He' : enough_loops (length (map SRun (seq 0 n))) (length (seq 0 m)) k max_block)
    by (rewrite map_length, !seq_length; exact He).
  pose proof (block_msound _ _ _ _ _ k Hk offset Ho max_block MS (fun _ => NG) SW) as MS2.
  pose proof (block_no_give_up _ _ _ _ _ _ _ MS NG (simple_finite n m) k offset max_block Hk He') as NG2.
  pose proof (block_seen_wf _ _ _ _ _ k offset max_block MS (fun _ => NG) SW) as SW2.
  pose proof (back_msound _ _ _ _ _ max_back MS2 (fun _ => NG2) SW2) as MS3.
  pose proof (ms_step _ _ _ _ _ MS3 C c t HR Ht) as H.
  unfold outcome in H. rewrite Hc in H. now apply H.
Qed.

(** Whatever the limits, the infinite verdict is the only thing a stacked machine
    can get wrong: all other answers ([outcome] with the guard [False]) are exact. *)
Theorem C07_stack_otherwise_exact :
  forall n m tab, wf_ttable n m tab ->
  forall k offset max_block max_back, (0 < k)%nat -> (offset < k)%nat ->
  forall C c, Rback (Rblock (simple_machine tab) (Rsimple n m) k) C c ->
  exists t, m_trans (back_machine (block_machine (simple_machine tab) k offset max_block) max_back)
              (facing C) (d_st C) (d_dir C) = Some t /\
    outcome False (table_of tab)
            (back_machine (block_machine (simple_machine tab) k offset max_block) max_back)
            (Rback (Rblock (simple_machine tab) (Rsimple n m) k)) (khalted (bhalted shalted)) C c t.
Proof.
  intros n m tab W k offset max_block max_back Hk Ho C c HR.
  assert (NF : forall P : Prop, False -> P) by tauto.
  pose proof (simple_msound False n m tab W) as MS.
  pose proof (simple_seen_wf n m tab W) as SW.
  pose proof (block_msound _ _ _ _ _ k Hk offset Ho max_block MS (NF _) SW) as MS2.
  pose proof (block_seen_wf _ _ _ _ _ k offset max_block MS (NF _) SW) as SW2.
  pose proof (back_msound _ _ _ _ _ max_back MS2 (NF _) SW2) as MS3.
  pose proof (ms_total _ _ _ _ _ MS3 C c HR) as Ht.
  destruct (m_trans _ (facing C) (d_st C) (d_dir C)) as [t|] eqn:E; [|congruence].
  exists t. split; [reflexivity|]. exact (ms_step _ _ _ _ _ MS3 C c t HR E).
Qed.

(** the relation above holds of every tape of blocks (here: in front of the head
    and behind it), in particular of the blank tape *)
Lemma back_block_denotes n m tab (W : wf_ttable n m tab) k (Hk : (0 < k)%nat) l r b q c o :
  blocks_at k (scons b l) r o (tp c) -> small m (scons b l) r ->
  st c = q -> (q < n)%nat -> hd c = o ->
  Rback (Rblock (simple_machine tab) (Rsimple n m) k) (DCfg l r (Back (Plain (SRun q)) b) R) c.
Proof.
  intros Hb Hs <- Hq <-. unfold Rback, unback; simpl. apply blocks_flat; auto.
  split; [reflexivity|]. split; [exact Hq|]. split; [exact I|]. split; [exact Hs|].
  exists (hd c). split; [exact Hb|reflexivity].
Qed.

(** ** C08 *)

(** If the machine stays in the window for ever, a loop limit of three times the
    number of window configurations (at least 384) suffices to report it ... *)
Theorem C08_repeat_detector_complete :
  forall n m tab, wf_ttable n m tab ->
  forall o k c max tape pos d,
  (st c < n)%nat -> hd c = o + pos -> 0 <= pos < Z.of_nat k ->
  length tape = k -> (forall a, In a tape -> (a < m)%nat) -> shows o tape (tp c) ->
  (3 * Nat.max 128 (n * 2 * k * m ^ k) <= max)%nat ->
  exists t, sim_limited (simple_machine tab) (SRun (st c)) tape pos d max = Some t /\
    t_cond t <> GAVE_UP /\
    (t_cond t = INF_REPEAT <->
     forall i, exists ci, steps (table_of tab) i c = Some ci /\ in_window o k ci).
Proof.
  intros n m tab W o k c max tape pos d H1 H2 H3 H4 H5 H6 He.
  destruct (window_exact n m tab W o k c max (st c) tape pos d eq_refl H1 H2 H3 H4 H5 H6)
    as (t & Et & _ & Ha).
  pose proof (window_decides n m tab W o k c max (st c) tape pos d t eq_refl H1 H2 H3 H4 H5 H6
               He Et) as Hg.
  exists t. split; [exact Et|]. split; [exact Hg|]. unfold window_answer in Ha. split.
  - intros E. now rewrite E in Ha.
  - intros Hall. destruct (t_cond t); auto; exfalso.
    + destruct Ha as (c' & A1 & _ & _ & A4 & _). destruct (Hall (t_steps t)) as (ci & B1 & B2).
      rewrite A1 in B1. injection B1 as <-. unfold in_window in B2. rewrite A4 in B2.
      destruct (t_dir t); lia.
    + destruct Ha as (q & s & tp' & rest & A1 & _). eapply halts_not_nonhalting; [exact A1|].
      intros i. destruct (Hall i) as (ci & -> & _). discriminate.
    + destruct Ha as (q & s & tp' & rest & A1 & _). eapply halts_not_nonhalting; [exact A1|].
      intros i. destruct (Hall i) as (ci & -> & _). discriminate.
    + now apply Hg.
Qed.

(** ... and a run that repeats from step [mu] on with period [lam] is reported
    within three times the larger of the two. *)
Theorem C08_repeat_detector_time :
  forall n m tab, wf_ttable n m tab ->
  forall o k c max tape pos d mu lam,
  (st c < n)%nat -> hd c = o + pos -> 0 <= pos < Z.of_nat k ->
  length tape = k -> (forall a, In a tape -> (a < m)%nat) -> shows o tape (tp c) ->
  (forall i, exists ci, steps (table_of tab) i c = Some ci /\ in_window o k ci) ->
  (0 < lam)%nat ->
  (forall i a b, (mu <= i)%nat -> steps (table_of tab) i c = Some a ->
                 steps (table_of tab) (i + lam) c = Some b -> ceq a b) ->
  (3 * Nat.max 128 (Nat.max (S mu) lam) <= max)%nat ->
  exists t, sim_limited (simple_machine tab) (SRun (st c)) tape pos d max = Some t /\
            t_cond t = INF_REPEAT.
Proof.
  intros n m tab W o k c max tape pos d mu lam H1 H2 H3 H4 H5 H6 H7 H8 H9 H10.
  exact (window_brent n m tab W o k c max (st c) tape pos d mu lam
           eq_refl H1 H2 H3 H4 H5 H6 H7 H8 H9 H10).
Qed.

(** The comment at Turing_Machine.py:133-136 promises twice the larger of the two.
    That is false: with a pre-period and a period of 130 (a chain of states bouncing
    in a window of two cells) 260 loops do not suffice. *)
Definition c08_rows : list quint :=
  map (fun i => Quint i 0 (Some 0%nat) (if Nat.even i then R else L)
                      (SRun (if Nat.eqb i 259 then 130 else S i))) (seq 0 260).

Theorem C08_double_bound_refuted :
  exists rows n m tab tape pos, tm_from_quintuples rows n m = Some tab /\
    let run := wrun (simple_machine tab) in
    let w0 := WCfg (SRun 0) R pos tape in
    (forall i, (i <= 300)%nat -> run i w0 <> None) /\
    exists mu lam, (0 < lam)%nat /\ run (mu + lam)%nat w0 = run mu w0 /\ run mu w0 <> None /\
    exists t, sim_limited (simple_machine tab) (SRun 0) tape pos R (2 * Nat.max mu lam) = Some t /\
              t_cond t = GAVE_UP.
Proof.
  exists c08_rows, 260%nat, 1%nat.
  eexists. exists [0; 0]%nat, 0. split; [vm_compute; reflexivity|].
  intros run w0.
  split.
  - intros i Hi. assert (A : run 300%nat w0 <> None) by (vm_compute; discriminate).
    intros E. apply A. replace 300%nat with (i + (300 - i))%nat by lia.
    unfold run in *. rewrite wrun_add, E. reflexivity.
  - exists 130%nat, 130%nat. split; [lia|]. split; [vm_compute; reflexivity|].
    split; [vm_compute; discriminate|]. eexists. split; [vm_compute; reflexivity|reflexivity].
Qed.

Definition spin_rows : list quint :=
  [Quint 0 0 (Some 0%nat) R (SRun 1); Quint 1 0 (Some 0%nat) L (SRun 0)].
Example C08_example :
  exists tab t, tm_from_quintuples spin_rows 2 1 = Some tab /\
    sim_limited (simple_machine tab) (SRun 0) [0; 0]%nat 0 R 384 = Some t /\
    t_cond t = INF_REPEAT /\
    exists t', sim_limited (simple_machine tab) (SRun 0) [0; 0]%nat 0 R 100 = Some t' /\
               t_cond t' = GAVE_UP.
Proof.
  do 2 eexists. split; [vm_compute; reflexivity|]. split; [vm_compute; reflexivity|].
  split; [reflexivity|]. eexists. split; [vm_compute; reflexivity|reflexivity].
Qed.

(** ** C09 *)

(** Every history of requests through the cache gives the answers of fresh
    evaluation, for every capacity (including zero). *)
Theorem C09_cache_transparent :
  forall K V (keqb : K -> K -> bool), (forall a b, keqb a b = true -> a = b) ->
  forall capacity (eval : K -> option V) history,
  run_requests keqb capacity eval [] history = map eval history.
Proof.
  intros K V keqb H capacity eval history. apply run_requests_fresh; [exact H|].
  simpl. discriminate.
Qed.

(** In particular for the block machine keyed by (symbol, state, direction). *)
Definition trans_key := (list nat * bstate sstate * dir)%type.
Definition trans_key_eqb (a b : trans_key) : bool :=
  list_eqb Nat.eqb (fst (fst a)) (fst (fst b)) &&
  bstate_eqb sstate_eqb (snd (fst a)) (snd (fst b)) && dir_eqb (snd a) (snd b).

Lemma trans_key_eqb_eq a b : trans_key_eqb a b = true -> a = b.
Proof.
  destruct a as [[a1 a2] a3], b as [[b1 b2] b3]. unfold trans_key_eqb; simpl.
  rewrite !andb_true_iff, (list_eqb_eq _ Nat.eqb_eq), dir_eqb_eq.
  intros [[-> H] ->]. f_equal. f_equal.
  assert (S0 : forall x y, sstate_eqb x y = true -> x = y).
  { intros [x|] [y|]; simpl; try congruence. rewrite Nat.eqb_eq. congruence. }
  destruct a2, b2; simpl in H; try discriminate.
  - f_equal. auto.
  - apply andb_true_iff in H. destruct H as [H1 H2]. apply Nat.eqb_eq in H2. subst. f_equal. auto.
Qed.

Theorem C09_block_cache_transparent :
  forall tab k max capacity (history : list trans_key),
  let eval key := block_trans (simple_machine tab) k max (fst (fst key)) (snd (fst key)) (snd key) in
  run_requests trans_key_eqb capacity eval [] history = map eval history.
Proof.
  intros. apply C09_cache_transparent. exact trans_key_eqb_eq.
Qed.

(** The cache never holds more than its capacity (or one) entries. *)
Theorem C09_cache_bounded :
  forall K V (keqb : K -> K -> bool) capacity (eval : K -> option V) history,
  (length (table_after keqb capacity eval [] history) <= Nat.max 1 capacity)%nat.
Proof. intros. apply cache_bounded. simpl. lia. Qed.

Example C09_example : (* overflow in the middle of the history *)
  run_requests Nat.eqb 2 (fun k => Some (k * k)%nat) [] [1; 2; 1; 3; 2; 1]%nat =
  map (fun k => Some (k * k)%nat) [1; 2; 1; 3; 2; 1]%nat /\
  length (table_after Nat.eqb 2 (fun k => Some (k * k)%nat) [] [1; 2; 3]%nat) = 1%nat.
Proof. split; reflexivity. Qed.

Print Assumptions C03_quintuple_machine.
Print Assumptions C03_quintuple_accepts.
Print Assumptions C04_window_simulation_exact.
Print Assumptions C05_block_machine_exact.
Print Assumptions C05_block_machine_layer.
Print Assumptions C06_backsymbol_machine_exact.
Print Assumptions C06_backsymbol_machine_layer.
Print Assumptions C07_spurious_repeat_refuted.
Print Assumptions C07_default_limits_refuted.
Print Assumptions C07_no_spurious_repeat_partial.
Print Assumptions C07_stack_otherwise_exact.
Print Assumptions C08_repeat_detector_complete.
Print Assumptions C08_repeat_detector_time.
Print Assumptions C08_double_bound_refuted.
Print Assumptions C09_cache_transparent.
Print Assumptions C09_block_cache_transparent.
Print Assumptions C09_cache_bounded.
