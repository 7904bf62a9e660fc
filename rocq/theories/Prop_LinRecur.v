(** * Properties C25 - C28: the Lin recurrence filter and quasihalting *)
Require Import ZArith List Lia Bool Arith.
From Verif Require Import Spec_TM M_Turing_Machine M_Direct M_Tape M_Simulator M_Settings M_Prover M_ProverRun
  P_Stream P_SimLimited P_Macro P_Simulator P_Settings P_ProverRun P_Direct P_Quint Prop_Macro Prop_Prover M_LinRecur P_LinRecur.
Import ListNotations.
Open Scope Z_scope.

Lemma halts_runs T n q x b t k : halts_at T initial n q x b t -> steps T k initial <> None -> (k < n)%nat.
Proof.
  intros (mm & c & w & d & -> & R & -> & -> & H & _) N.
  destruct (Nat.lt_ge_cases k (S mm)) as [|L]; [assumption|]. exfalso. apply N.
  destruct (steps T k initial) as [e|] eqn:E; [|reflexivity]. exfalso.
  destruct (steps_le T k (S mm) initial e L E) as [f F]. rewrite steps_S, R in F. unfold step in F. now rewrite H in F.
Qed.
Lemma halts_last T n q x b t k : halts_at T initial n q x b t -> (n <= k)%nat -> steps T k initial = None.
Proof.
  intros H L. destruct (steps T k initial) eqn:E; [|reflexivity].
  exfalso. assert (N : steps T k initial <> None) by congruence.
  pose proof (halts_runs T n q x b t k H N). lia.
Qed.

Lemma min_start_ok n m tab s p : wf_ttable n m tab -> lin_recurrent (table_of tab) s p ->
  exists r, period_search (simple_machine tab) s p = Some r /\ 0 <= r /\
    lin_recurrent (table_of tab) (Z.to_nat r) p /\
    forall j, (j < Z.to_nat r)%nat -> ~ lin_recurrent (table_of tab) j p.
Proof.
  intros W LR. unfold period_search.
  apply (period_loop_ok n m tab W p); [apply LR|exact (lr_nonhalting _ _ _ LR)|lia|lia|auto|].
  rewrite Nat2Z.id. exact LR.
Qed.

Lemma filter_inv n m tab fuel max fm r b : wf_ttable n m tab -> max <> 1%nat ->
  lr_filter (simple_machine tab) fuel max fm = Some (Some (Some r, b)) ->
  exists r0, lr_ok tab r0 b /\ lr_period r = lr_period r0 /\ lr_offset r = lr_offset r0 /\
    lin_recurrent (table_of tab) (lr_start r) (lr_period r) /\
    (fm = true -> forall j, (j < lr_start r)%nat -> ~ lin_recurrent (table_of tab) j (lr_period r)).
Proof.
  intros W N1. unfold lr_filter. pose proof (detect_ok n m tab W fuel max N1) as D.
  destruct (lin_detect_not_min (simple_machine tab) fuel max) as [[[[r0|] b0]|]|]; try discriminate.
  destruct fm.
  - destruct (min_start_ok n m tab _ _ W (proj1 D)) as (s & E & S0 & LR' & MIN). rewrite E.
    intros Q. assert (b0 = b) as -> by congruence.
    assert (r = LR (Z.to_nat s) (lr_period r0) (lr_offset r0)) as -> by congruence. exists r0. cbn. auto.
  - intros Q. assert (b0 = b) as -> by congruence. assert (r0 = r) as -> by congruence.
    exists r. split; [exact D|]. split; [reflexivity|]. split; [reflexivity|]. split; [apply D|discriminate].
Qed.

(** ** C25 *)

(** If the filter reports success with start [s], period [p] and offset [o], the machine
    never halts, and from step [s] on state and symbol read repeat with period [p] while
    the head is shifted by [o]. *)
Theorem C25_lin_recurrence_true :
  forall n m tab fuel max_steps find_min r b, wf_ttable n m tab ->
  lr_filter (simple_machine tab) fuel max_steps find_min = Some (Some (Some r, b)) ->
  let T := table_of tab in
  nonhalting T initial /\ (0 < lr_period r)%nat /\
  forall i, exists c d, steps T (lr_start r + i) initial = Some c /\
    steps T (lr_start r + i + lr_period r) initial = Some d /\
    st d = st c /\ tp d (hd d) = tp c (hd c) /\ hd d = hd c + lr_offset r.
Proof.
  intros n m tab fuel max fm r b W E T.
  destruct (Nat.eq_dec max 1) as [->|N1].
  { exfalso. unfold lr_filter, lin_detect_not_min in E. destruct (ds_step _ _); discriminate. }
  destruct (filter_inv n m tab fuel max fm r b W N1 E) as (r0 & OK & EP & EO & LR & _).
  split; [exact (lr_nonhalting _ _ _ LR)|]. split; [apply LR|].
  destruct (proj2 LR 0%nat) as (c0 & d0 & R0 & R1 & _). rewrite Nat.add_0_r in R0, R1.
  assert (HO : hd d0 - hd c0 = lr_offset r).
  { destruct OK as (LR0 & _ & (c1 & d1 & R2 & R3 & O) & _). rewrite EO, O.
    set (k := Nat.max (lr_start r) (lr_start r0)).
    destruct (lr_heads T _ _ _ _ LR R0 R1 (k - lr_start r)%nat) as (c2 & d2 & R4 & R5 & _ & _ & H2).
    destruct (lr_heads T _ _ _ _ LR0 R2 R3 (k - lr_start r0)%nat) as (c3 & d3 & R6 & R7 & _ & _ & H3).
    replace (lr_start r + (k - lr_start r))%nat with k in * by lia.
    replace (lr_start r0 + (k - lr_start r0))%nat with k in * by lia. rewrite <- EP in R7.
    assert (c3 = c2) as -> by congruence. assert (d3 = d2) as -> by congruence. lia. }
  intros i. destruct (lr_heads T _ _ _ _ LR R0 R1 i) as (c & d & A & B & C & D & F).
  exists c, d. rewrite <- HO. auto.
Qed.

(** the period is the shortest one, for any start *)
Theorem C25_period_shortest :
  forall n m tab fuel max_steps find_min r b s p, wf_ttable n m tab ->
  lr_filter (simple_machine tab) fuel max_steps find_min = Some (Some (Some r, b)) ->
  (0 < p)%nat ->
  (forall i, exists c d, steps (table_of tab) (s + i) initial = Some c /\
     steps (table_of tab) (s + i + p) initial = Some d /\ st d = st c /\ tp d (hd d) = tp c (hd c)) ->
  (lr_period r <= p)%nat.
Proof.
  intros n m tab fuel max fm r b s p W E P H.
  destruct (Nat.eq_dec max 1) as [->|N1].
  { exfalso. unfold lr_filter, lin_detect_not_min in E. destruct (ds_step _ _); discriminate. }
  destruct (filter_inv n m tab fuel max fm r b W N1 E) as (r0 & (LR0 & MIN & _) & EP & _).
  destruct (Nat.le_gt_cases (lr_period r) p) as [|L]; [assumption|]. exfalso.
  apply (MIN p); [lia|]. exact (lr_period_from _ _ _ s p LR0 (conj P H)).
Qed.

(** ** C26 *)

(** The filter never raises (unless the limit is 1); a halt reported is exact and a halt
    within the limit is reported. *)
Theorem C26_halting_exact :
  forall n m tab fuel max_steps find_min, wf_ttable n m tab -> max_steps <> 1%nat ->
  lr_filter (simple_machine tab) fuel max_steps find_min <> Some None /\
  (forall k sc q x, lr_filter (simple_machine tab) fuel max_steps find_min = Some (Some (None, BHalt k sc q x)) ->
     exists s e t, q = SRun s /\ halts_at (table_of tab) initial k s x e t /\ score t sc) /\
  (forall k s x e t, halts_at (table_of tab) initial k s x e t -> (max_steps = 0 \/ k <= max_steps)%nat ->
     (0 < fuel)%nat -> (k <= 2 ^ fuel)%nat ->
     exists sc, lr_filter (simple_machine tab) fuel max_steps find_min = Some (Some (None, BHalt k sc (SRun s) x)) /\
       score t sc) /\
  (lr_filter (simple_machine tab) fuel max_steps find_min = Some (Some (None, BNone)) ->
     max_steps <> 0%nat /\ steps (table_of tab) max_steps initial <> None).
Proof.
  intros n m tab fuel max fm W N1. pose proof (detect_ok n m tab W fuel max N1) as D. unfold lr_filter.
  destruct (lin_detect_not_min (simple_machine tab) fuel max) as [[[[r0|] b0]|]|].
  - assert (NH := lr_nonhalting _ _ _ (proj1 D)).
    assert (X : forall (o : option (option (option lr_result * bbstatus))),
      (exists r, o = Some (Some (Some r, b0))) -> o <> Some None /\
      (forall k sc q x, o = Some (Some (None, BHalt k sc q x)) ->
         exists s e t, q = SRun s /\ halts_at (table_of tab) initial k s x e t /\ score t sc) /\
      (forall k s x e t, halts_at (table_of tab) initial k s x e t -> (max = 0 \/ k <= max)%nat ->
       (0 < fuel)%nat -> (k <= 2 ^ fuel)%nat ->
       exists sc, o = Some (Some (None, BHalt k sc (SRun s) x)) /\ score t sc) /\
      (o = Some (Some (None, BNone)) -> max <> 0%nat /\ steps (table_of tab) max initial <> None)).
    { intros o (r & ->). split; [discriminate|]. split; [discriminate|]. split; [|discriminate].
      intros k s x e t H. destruct (halts_not_nonhalting _ _ _ _ _ _ _ H NH). }
    apply X. destruct fm; [|eauto].
    destruct (min_start_ok n m tab _ _ W (proj1 D)) as (s & E & _). rewrite E. eauto.
  - split; [discriminate|]. destruct b0 as [|k0 sc0 q0 x0|b1].
    + destruct D as (M0 & j & L & R & _). split; [discriminate|]. split.
      * intros k s x e t H B _ _. pose proof (halts_runs _ _ _ _ _ _ _ H R). lia.
      * intros _. split; [exact M0|]. intros E.
        destruct (steps (table_of tab) (2 ^ j) initial) eqn:Ej; [|now apply R].
        destruct (steps_le _ _ _ _ _ L Ej). congruence.
    + destruct q0 as [s0|]; [|destruct D]. destruct D as (e & t & H & Sc).
      split; [intros k sc q x E; inversion E; subst; exists s0, e, t; auto|]. split; [|discriminate].
      intros k s x e' t' H' _ _ _. destruct (halts_at_fun _ _ _ _ _ _ _ _ _ _ _ _ H H') as (<- & <- & <- & <- & Et).
      exists sc0. split; [reflexivity|]. exact (score_ext _ _ _ Et Sc).
    + destruct D.
  - destruct D.
  - split; [discriminate|]. split; [discriminate|]. split; [|discriminate].
    intros k s x e t H B F L. destruct D as [->|(_ & R & _)]; [lia|].
    pose proof (halts_runs _ _ _ _ _ _ _ H R). lia.
Qed.

(** A machine whose (state, symbol read) sequence repeats with period [p] from step [s] on
    is found as soon as the limit exceeds a power of two that is at least [s] and [p]. *)
Theorem C26_recurrence_found :
  forall n m tab fuel max_steps find_min s p k, wf_ttable n m tab ->
  (0 < p)%nat ->
  (forall i, exists c d, steps (table_of tab) (s + i) initial = Some c /\
     steps (table_of tab) (s + i + p) initial = Some d /\ st d = st c /\ tp d (hd d) = tp c (hd c)) ->
  (s <= 2 ^ k)%nat -> (p <= 2 ^ k)%nat -> (max_steps = 0 \/ 2 ^ k < max_steps)%nat -> (k < fuel)%nat ->
  exists r b, lr_filter (simple_machine tab) fuel max_steps find_min = Some (Some (Some r, b)).
Proof.
  intros n m tab fuel max fm s p k W P H S1 P1 B F.
  assert (LR : lin_recurrent (table_of tab) s p) by (split; assumption).
  assert (NH := lr_nonhalting _ _ _ LR).
  pose proof (Nat.pow_nonzero 2 k ltac:(lia)) as P2.
  assert (N1 : max <> 1%nat) by lia.
  assert (Q : ~ no_lr tab (2 ^ k)).
  { intros Q. apply (Q p); [lia|]. apply (lr_later _ s); assumption. }
  pose proof (detect_ok n m tab W fuel max N1) as D. unfold lr_filter.
  destruct (lin_detect_not_min (simple_machine tab) fuel max) as [[[[r0|] b0]|]|].
  - destruct fm; [|eauto]. destruct (min_start_ok n m tab _ _ W (proj1 D)) as (s' & E & _). rewrite E. eauto.
  - exfalso. destruct b0 as [|k0 sc0 q0 x0|b1]; [| |destruct D].
    + destruct D as (M0 & j & L & R & NL). apply Q, NL.
      assert (2 ^ k < 2 ^ j)%nat by lia. apply (Nat.pow_lt_mono_r_iff 2); lia.
    + destruct q0 as [s0|]; [|destruct D]. destruct D as (e & t & HA & _).
      exact (halts_not_nonhalting _ _ _ _ _ _ _ HA NH).
  - destruct D.
  - exfalso. destruct D as [->|(_ & _ & NL)]; [lia|]. apply Q, NL, F.
Qed.

(** With max_steps = 1 the filter raises, for every machine: line 104 reads a variable that
    has not been assigned. *)
Theorem C26_limit_one_refuted :
  forall tab fuel find_min, lr_filter (simple_machine tab) fuel 1 find_min = Some None.
Proof.
  intros. unfold lr_filter, lin_detect_not_min. destruct (ds_step _ _); reflexivity.
Qed.

(** ** C27 *)

(** With the minimal start requested, nothing recurs earlier, not even with another
    period. *)
Theorem C27_minimal_start :
  forall n m tab fuel max_steps r b s p, wf_ttable n m tab ->
  lr_filter (simple_machine tab) fuel max_steps true = Some (Some (Some r, b)) ->
  (0 < p)%nat ->
  (forall i, exists c d, steps (table_of tab) (s + i) initial = Some c /\
     steps (table_of tab) (s + i + p) initial = Some d /\ st d = st c /\ tp d (hd d) = tp c (hd c)) ->
  (lr_start r <= s)%nat.
Proof.
  intros n m tab fuel max r b s p W E P H.
  destruct (Nat.eq_dec max 1) as [->|N1].
  { exfalso. rewrite C26_limit_one_refuted in E. discriminate. }
  destruct (filter_inv n m tab fuel max true r b W N1 E) as (r0 & _ & _ & _ & LR & MIN).
  destruct (Nat.le_gt_cases (lr_start r) s) as [|L]; [assumption|]. exfalso.
  apply (MIN eq_refl s L). exact (lr_period_from _ s p _ _ (conj P H) LR).
Qed.

(** The test used by the binary search is exact. *)
Theorem C27_check_recur_exact :
  forall n m tab s p, wf_ttable n m tab -> (0 < p)%nat -> nonhalting (table_of tab) initial ->
  exists b, check_recur (simple_machine tab) s p = Some b /\
    (b = true <-> forall i, exists c d, steps (table_of tab) (s + i) initial = Some c /\
       steps (table_of tab) (s + i + p) initial = Some d /\ st d = st c /\ tp d (hd d) = tp c (hd c)).
Proof.
  intros n m tab s p W P NH. destruct (check_recur_ok n m tab W s p P NH) as (b & E & H).
  exists b. split; [exact E|]. rewrite H. unfold lin_recurrent. tauto.
Qed.

(** ** C28 *)

(** What a quasihalting status must mean: the state was entered at the step before the one
    reported and never again, and all states entered later are entered for ever;
    "not quasihalting": every state entered is entered for ever. *)
Definition quasi_true (T : table) (b : quasi) : Prop :=
  match b with
  | QUndecided => True
  | QNot => forall n c, steps T n initial = Some c ->
      forall k, exists i d, (k <= i)%nat /\ steps T i initial = Some d /\ st d = st c
  | QHalt k SHalt => False
  | QHalt k (SRun q) => exists n c, k = Z.of_nat n + 1 /\ steps T n initial = Some c /\ st c = q /\
      forall j d, (n < j)%nat -> steps T j initial = Some d -> st d <> q /\
        forall k, exists i e, (k <= i)%nat /\ steps T i initial = Some e /\ st e = st d
  end.
Lemma quasi_true_ok T b : quasi_ok T b -> quasi_true T b.
Proof.
  destruct b as [| |k [q|]]; cbn [quasi_ok quasi_true]; auto.
  intros (n & c & -> & H). exists n, c. split; [lia|]. exact H.
Qed.

Theorem C28_lin_recur_quasihalt :
  forall n m tab fuel max_steps find_min r b, wf_ttable n m tab ->
  lr_filter (simple_machine tab) fuel max_steps find_min = Some (Some (Some r, b)) ->
  exists q, b = BInf q /\ q <> QUndecided /\ quasi_true (table_of tab) q.
Proof.
  intros n m tab fuel max fm r b W E.
  destruct (Nat.eq_dec max 1) as [->|N1].
  { exfalso. rewrite C26_limit_one_refuted in E. discriminate. }
  destruct (filter_inv n m tab fuel max fm r b W N1 E) as (r0 & (_ & _ & _ & q & -> & N & Q) & _).
  exists q. split; [reflexivity|]. split; [exact N|]. now apply quasi_true_ok.
Qed.

(** *** the simulator *)
Definition nodup_seen {Sym St} (s : sim Z Sym St) : Prop :=
  match s_seen s with Some d => NoDup (map fst d) | None => True end.

Lemma nd_set_keys {N} k (v : N) d x : In x (map fst (nd_set k v d)) -> x = k \/ In x (map fst d).
Proof.
  induction d as [|[a w] d IH]; cbn [nd_set map fst In].
  - intros [->|[]]. auto.
  - destruct (Nat.eqb_spec k a); cbn [map fst In]; [auto|]. intros [->|H]; [auto|].
    destruct (IH H); auto.
Qed.
Lemma nd_set_nodup {N} k (v : N) d : NoDup (map fst d) -> NoDup (map fst (nd_set k v d)).
Proof.
  induction d as [|[a w] d IH]; cbn [nd_set map fst]; intros H.
  - constructor; [intros []|constructor].
  - inversion H as [|? ? H1 H2]; subst. destruct (Nat.eqb_spec k a); cbn [map fst]; [exact H|].
    constructor; [|apply IH, H2]. intros I. apply nd_set_keys in I as [->|I]; congruence.
Qed.
Lemma nd_fold_nodup {V N} (f : V -> N) (new : list (nat * V)) : forall d, NoDup (map fst d) ->
  NoDup (map fst (fold_left (fun d kv => nd_set (fst kv) (f (snd kv)) d) new d)).
Proof. induction new as [|kv new IH]; intros d H; cbn [fold_left]; [exact H|]. apply IH, nd_set_nodup, H. Qed.

Section Nodup.
  Context {Sym St P : Type}.
  Variables (M : machine Sym St) (lap : P -> ctape Z Sym -> St -> nat -> option (P * prover_result Z Sym)).

  Lemma move_nodup s s' : sim_move zops M s = Some s' -> nodup_seen s -> nodup_seen s'.
  Proof.
    unfold sim_move, nodup_seen. intros E H.
    assert (U : forall base new, match seen_update zops (s_seen s) base new with Some d => NoDup (map fst d) | None => True end).
    { intros base new. unfold seen_update. destruct (s_seen s) as [d|]; [|exact I].
      apply (nd_fold_nodup (fun v => n_add zops base (n_of zops (Z.of_nat v)))), H. }
    destruct (ct_top (s_tape s)) as [top|]; [|discriminate].
    destruct (m_trans M (k_sym top) (s_state s) (s_dir s)) as [t|]; [|discriminate].
    destruct (cond_eqb (t_cond t) INF_REPEAT); [injection E as <-; exact H|].
    destruct (m_st_eqb M (t_state t) (s_state s) && dir_eqb (t_dir t) (s_dir s) && cond_eqb (t_cond t) RUNNING).
    - destruct (apply_chain_move _ _ _ _) as [[tape [z|]]|]; [| |discriminate]; injection E as <-; [apply U|exact H].
    - destruct (cond_eqb (t_cond t) GAVE_UP); cbn [negb] in E; [injection E as <-; exact H|].
      destruct (apply_single_move _ _ _ _ _) as [tape|]; [|discriminate]. injection E as <-. apply U.
  Qed.
  Lemma step_nodup p s p' s' : sim_step zops M lap (p, s) = Some (p', s') -> nodup_seen s -> nodup_seen s'.
  Proof.
    unfold sim_step. intros E H.
    destruct (cond_eqb (s_op s) RUNNING); cbn [negb] in E; [|injection E as <- <-; exact H].
    destruct (lap p (s_tape (loop_inc s)) (s_state (loop_inc s)) (s_loops (loop_inc s) - 1)) as [[p1 [|tape k seen|states]]|]; [| | |discriminate].
    - destruct (sim_move zops M (loop_inc s)) as [s1|] eqn:E1; [|discriminate]. injection E as <- <-.
      apply (move_nodup _ _ E1 H).
    - injection E as <- <-. unfold nodup_seen, seen_merge in *. cbn [s_seen loop_inc].
      destruct (s_seen s) as [d|]; [|exact I]. destruct seen as [[|kv new]|]; [exact I| |exact I].
      apply (nd_fold_nodup (fun v => n_add zops (s_steps (loop_inc s)) v)), H.
    - injection E as <- <-. exact H.
  Qed.
  Lemma drive_nodup d p s p' s' : drive M lap d (p, s) = Some (p', s') -> nodup_seen s -> nodup_seen s'.
  Proof.
    destruct d as [k|k|z]; cbn [drive].
    - revert p s. induction k as [|k IH]; intros p s; cbn [sim_iter].
      + intros E H. injection E as <- <-. exact H.
      + destruct (sim_step zops M lap (p, s)) as [[p1 s1]|] eqn:E1; [|discriminate]. intros E H.
        apply (IH p1 s1 E). apply (step_nodup _ _ _ _ E1 H).
    - unfold loop_seek. generalize (k - s_loops (snd (p, s)))%nat as f. intros f. revert p s.
      induction f as [|f IH]; intros p s; cbn [loop_seek_loop]; destruct (_ && _); intros E H;
        try (injection E as <- <-; exact H); try discriminate.
      destruct (sim_step zops M lap (p, s)) as [[p1 s1]|] eqn:E1; [|discriminate].
      apply (IH p1 s1 E). apply (step_nodup _ _ _ _ E1 H).
    - unfold sim_seek. generalize (Z.to_nat (z - s_steps (snd (p, s)))) as f. intros f. revert p s.
      induction f as [|f IH]; intros p s; cbn [seek_loop]; destruct (_ && _); intros E H;
        try (injection E as <- <-; exact H); try discriminate.
      destruct (sim_step zops M lap (p, s)) as [[p1 s1]|] eqn:E1; [|discriminate].
      apply (IH p1 s1 E). apply (step_nodup _ _ _ _ E1 H).
  Qed.
End Nodup.

Definition nodup_report (r : report) : Prop := match r_seen r with Some d => NoDup (map fst d) | None => True end.

Lemma prover_nodup tab g mc mr next d r : run_prover tab g mc mr next d = Some r -> nodup_report r.
Proof.
  unfold run_prover. intros E.
  assert (X : forall Sym St (M : machine Sym St),
    match drive M (log_and_apply M mc mr) d (prover_init next, sim_init zops M) with
    | Some (_, s) => Some (report_of M s) | None => None end = Some r -> nodup_report r).
  { intros Sym St M. destruct (drive _ _ _ _) as [[p s]|] eqn:Ed; [|discriminate]. intros Q. injection Q as <-.
    apply drive_nodup in Ed; [exact Ed|]. constructor. }
  destruct g; exact (X _ _ _ E).
Qed.
Lemma plain_nodup tab g d r : run_plain tab g d = Some r -> nodup_report r.
Proof.
  unfold run_plain. intros E.
  assert (X : forall Sym St (M : machine Sym St),
    match drive M no_prover d (tt, sim_init zops M) with
    | Some (_, s) => Some (report_of M s) | None => None end = Some r -> nodup_report r).
  { intros Sym St M. destruct (drive _ _ _ _) as [[p s]|] eqn:Ed; [|discriminate]. intros Q. injection Q as <-.
    apply drive_nodup in Ed; [exact Ed|]. constructor. }
  destruct g; exact (X _ _ _ E).
Qed.

Lemma nd_get_in {N} k (v : N) d : NoDup (map fst d) -> (In (k, v) d <-> nd_get k d = Some v).
Proof.
  induction d as [|[a w] d IH]; cbn [nd_get In map fst]; intros H; [split; [intros []|discriminate]|].
  inversion H as [|? ? H1 H2]; subst. destruct (Nat.eqb_spec k a) as [->|N0].
  - split; [|intros Q; left; congruence]. intros [Q|Q]; [congruence|]. exfalso. apply H1.
    apply (in_map fst) in Q. exact Q.
  - rewrite <- (IH H2). split; [|auto]. intros [Q|Q]; [congruence|exact Q].
Qed.

Lemma report_quasi_ok T r Gd reason states : report_ok Gd T r -> nodup_report r -> r_op r = INF_REPEAT ->
  r_inf r = Some (reason, states) -> reason <> INF_MACRO_STEP -> quasi_true T (report_quasi r).
Proof.
  intros H ND Ho Hi Hr. apply quasi_true_ok. unfold report_ok in H. rewrite Ho in H.
  destruct H as (reason' & states' & Hi' & NH & H). rewrite Hi in Hi'.
  assert (reason' = reason) as -> by congruence. assert (states' = states) as -> by congruence.
  assert (NH' : nonhalting T initial) by (apply NH; congruence).
  destruct (H Hr) as (HS & S0 & (c & Rc & HO) & HV). unfold report_quasi. rewrite Hi.
  destruct (r_seen r) as [d|] eqn:Ed; [|exact I]. destruct states as [l|]; [|exact I].
  cbn [option_map]. unfold nodup_report in ND. rewrite Ed in ND. cbn in HS, HO, HV.
  assert (INL : forall q, In (SRun q) (map SRun l) <-> In q l).
  { intros q. split; [|apply in_map]. intros I. apply in_map_iff in I as (y & Q & I). congruence. }
  apply (quasi_from T (Z.to_nat (r_steps r))).
  - intros x v. rewrite in_map_iff. split.
    + intros ([k w] & Q & I). cbn in Q. apply (nd_get_in k w d ND) in I.
      destruct (HV k) as [A B]. rewrite I in A, B. cbn in B. destruct B as (B1 & (e & B2 & B3) & B4).
      exists k, (Z.to_nat w). split; [congruence|]. split; [assert (v = w) by congruence; lia|].
      split; [exact B1|]. split; [exists e; auto|]. intros j e' J. apply B4. lia.
    + intros (q & k & -> & -> & L & (e & R & Q) & NV). exists (q, Z.of_nat k). split; [reflexivity|].
      apply (nd_get_in _ _ _ ND). destruct (HV q) as [A B]. destruct (nd_get q d) as [w|]; cbn in B.
      * destruct B as (B1 & (e2 & B2 & B3) & B4). f_equal.
        destruct (Nat.lt_trichotomy k (Z.to_nat w)) as [X|[X|X]]; [|lia|].
        -- exfalso. apply (NV (Z.to_nat w) e2); [lia|exact B2|exact B3].
        -- exfalso. apply (B4 k e); [lia|exact R|exact Q].
      * exfalso. apply (B k e); [lia|exact R|exact Q].
  - intros q. rewrite INL. exact (HS q).
  - intros j e J R. apply HS. replace j with (Z.to_nat (r_steps r) + (j - Z.to_nat (r_steps r)))%nat in R by lia.
    rewrite steps_add, Rc in R. exact (HO _ _ R).
  - exact NH'.
Qed.

(** The status that the macro machine simulator, with or without prover, reports for an
    infinite chain step or an infinite rule is true.  Missing: a repeat inside a macro step,
    where it can be false, see below. *)
Theorem C28_simulator_quasihalt_partial :
  forall n m tab g mc mr next d r reason states, wf_ttable n m tab -> valid_setting g = true -> (0 < mr)%nat ->
  run_plain tab g d = Some r \/ run_prover tab g mc mr next d = Some r -> r_op r = INF_REPEAT ->
  r_inf r = Some (reason, states) -> reason <> INF_MACRO_STEP ->
  quasi_true (table_of tab) (report_quasi r).
Proof.
  intros n m tab g mc mr next d r reason states W V Hmr [E|E] Ho Hi Hr.
  - destruct (run_plain_ok n m tab g d False W V ltac:(tauto)) as (r' & E' & H & _).
    assert (r' = r) as -> by congruence. eapply report_quasi_ok; eauto. eapply plain_nodup; eauto.
  - destruct (run_prover_ok n m tab g mc mr next d False W V Hmr ltac:(tauto)) as (r' & E' & H & _).
    assert (r' = r) as -> by congruence. eapply report_quasi_ok; eauto. eapply prover_nodup; eauto.
Qed.

(** A: 0 -> 1RB; B: 0 -> 0LC; C: 1 -> 1RB.  State A is entered at step 0 only.  With blocks of
    two the first macro step never ends and all its states, A included, count as recurring:
    the simulator reports "not quasihalting". *)
Definition qrows : list quint :=
 [Quint 0 0 (Some 1%nat) R (SRun 1); Quint 1 0 (Some 0%nat) L (SRun 2); Quint 2 1 (Some 1%nat) R (SRun 1)].
Definition qtab := match tm_from_quintuples qrows 3 2 with Some t => t | None => [] end.
Lemma qtab_wf : wf_ttable 3 2 qtab.
Proof. apply (quintuples_wf qrows); [lia|lia|vm_compute; reflexivity]. Qed.
Lemma qtab_loop k : exists c, steps (table_of qtab) (S (2 * k)) initial = Some c /\ st c = 1%nat /\ hd c = 1 /\
  tp c 1 = 0%nat /\ tp c 0 = 1%nat.
Proof.
  induction k as [|k (c & R & Q & H & T1 & T0)].
  - eexists. split; [reflexivity|]. repeat split.
  - replace (S (2 * S k)) with (S (2 * k) + 2)%nat by lia. rewrite steps_add, R.
    destruct c as [q h t]. cbn [st hd tp] in *. subst. cbn [steps]. unfold step at 1. cbn [st hd tp].
    rewrite T1. cbn. unfold step. cbn [st hd tp]. unfold put at 1. cbn. rewrite T0. cbn.
    eexists. split; [reflexivity|]. cbn [st hd tp]. unfold put. cbn. auto.
Qed.
Theorem C28_macro_repeat_refuted :
  (exists r, run_plain qtab (SBlock 2 0 1000) (LoopSeek 10) = Some r /\ report_quasi r = QNot) /\
  ~ quasi_true (table_of qtab) QNot.
Proof.
  split; [eexists; split; vm_compute; reflexivity|].
  intros H. destruct (H 0%nat initial eq_refl 1%nat) as (i & d & L & R & E). cbn in E.
  destruct (qtab_loop (i / 2)) as (c & Rc & Q & Hh & T1 & T0).
  pose proof (Nat.div_mod i 2 ltac:(lia)) as DM. pose proof (Nat.mod_upper_bound i 2 ltac:(lia)) as MB.
  destruct (i mod 2)%nat as [|[|]] eqn:Em; [| |lia].
  - destruct (qtab_loop (i / 2 - 1)) as (c' & Rc' & Q' & H' & T1' & T0').
    replace i with (S (2 * (i / 2 - 1)) + 1)%nat in R by lia. rewrite steps_add, Rc' in R.
    destruct c' as [q h t]. cbn [st hd tp] in *. subst. cbn [steps] in R. unfold step in R. cbn [st hd tp] in R.
    rewrite T1' in R. cbn in R. injection R as <-. discriminate E.
  - replace (S (2 * (i / 2))) with i in Rc by lia. assert (d = c) as -> by congruence. congruence.
Qed.

(** ** Examples *)

(** A: 0 -> 1RB; B: 0 -> 1RC; C: 0 -> 1LB, 1 -> 1RC; B: 1 -> 1RC.  A occurs at step 0 only. *)
Definition lrows : list quint :=
 [Quint 0 0 (Some 1%nat) R (SRun 1); Quint 1 0 (Some 1%nat) R (SRun 2); Quint 1 1 (Some 1%nat) R (SRun 2);
  Quint 2 0 (Some 1%nat) L (SRun 1); Quint 2 1 (Some 1%nat) R (SRun 2)].
Definition ltab := match tm_from_quintuples lrows 3 2 with Some t => t | None => [] end.
Lemma ltab_wf : wf_ttable 3 2 ltab.
Proof. apply (quintuples_wf lrows); [lia|lia|vm_compute; reflexivity]. Qed.

(** start 4, or 2 when minimal; period 3, offset +1; A is entered last at step 0 *)
Example C25_example :
  lr_filter (simple_machine ltab) 10 100 false =
    Some (Some (Some (LR 4 3 1), BInf (QHalt 1 (SRun 0)))) /\
  lr_filter (simple_machine ltab) 10 0 true =
    Some (Some (Some (LR 2 3 1), BInf (QHalt 1 (SRun 0)))).
Proof. vm_compute. auto. Qed.

Example C26_example_halting : lr_filter (simple_machine bb2) 10 0 false = Some (Some (None, BHalt 6 4 (SRun 1) 1)).
Proof. vm_compute. reflexivity. Qed.
Example C26_example_limit : lr_filter (simple_machine bb5) 10 100 false = Some (Some (None, BNone)).
Proof. vm_compute. reflexivity. Qed.
Example C27_example : check_recur (simple_machine ltab) 1 3 = Some false /\ check_recur (simple_machine ltab) 2 3 = Some true.
Proof. vm_compute. auto. Qed.

(** the bouncer's states both recur; with the same machine entered through a third state
    the prover's verdict says that this state is left at step 0 *)
Definition bouncer3_rows : list quint :=
 [Quint 0 0 (Some 1%nat) R (SRun 1);
  Quint 1 0 (Some 1%nat) L (SRun 2); Quint 1 1 (Some 1%nat) R (SRun 1);
  Quint 2 0 (Some 1%nat) R (SRun 1); Quint 2 1 (Some 1%nat) L (SRun 2)].
Definition bouncer3 := match tm_from_quintuples bouncer3_rows 3 2 with Some t => t | None => [] end.
Example C28_example :
  match run_prover bouncer3 SBase 100 10 0 (Seek 1000) with
  | Some r => r_op r = INF_REPEAT /\ report_quasi r = QHalt 1 (SRun 0)
  | None => False
  end /\
  match run_prover bouncer SBase 100 10 0 (Seek 1000) with
  | Some r => r_op r = INF_REPEAT /\ report_quasi r = QNot
  | None => False
  end.
Proof. vm_compute. auto. Qed.

Print Assumptions C25_lin_recurrence_true.
Print Assumptions C25_period_shortest.
Print Assumptions C26_halting_exact.
Print Assumptions C26_recurrence_found.
Print Assumptions C26_limit_one_refuted.
Print Assumptions C27_minimal_start.
Print Assumptions C27_check_recur_exact.
Print Assumptions C28_lin_recur_quasihalt.
Print Assumptions C28_simulator_quasihalt_partial.
Print Assumptions C28_macro_repeat_refuted.
