(** * Properties C42, C43 and C44: the enumeration of machines *)
Require Import ZArith List Lia Bool Arith Permutation.
From Verif Require Import Spec_TM Spec_Rename M_Turing_Machine M_IO M_Enum P_Macro P_Quint P_IO P_Tree P_Complete P_Unique
  P_Complete2 P_Queue P_EnumTree.
Import ListNotations.
Open Scope nat_scope.

(** ** C42 *)

Definition undefined_at (n m : nat) (T : table) (a b : nat) : Prop := a < n /\ b < m /\ exists w d, T a b = Stop w d false.
Definition defined_at (n m : nat) (T : table) (a b : nat) : Prop := a < n /\ b < m /\ forall w d, T a b <> Stop w d false.

Lemma std_undefined n m tab a b t : std_table n m tab -> cell tab a b = Some t ->
  is_undefined t = true <-> exists w d, table_of tab a b = Stop w d false.
Proof.
  intros (_ & H) E. rewrite table_of_cell, E. specialize (H _ _ _ E). destruct H; simpl; split; eauto; try discriminate;
    intros (? & ? & ?); discriminate.
Qed.

Lemma undefined_two_inv n m tab ts : rect n m tab -> all_trans tab n m = Some ts -> 1 < num_undefined ts ->
  exists a b a' b' t t', (a, b) <> (a', b') /\ a < n /\ b < m /\ a' < n /\ b' < m /\
    cell tab a b = Some t /\ is_undefined t = true /\ cell tab a' b' = Some t' /\ is_undefined t' = true.
Proof.
  intros Hr E Hu. unfold num_undefined, all_trans in *.
  assert (G1 : forall cells ts, otraverse (map (fun a => simple_trans tab (snd a) (SRun (fst a))) cells) = Some ts ->
     0 < length (filter is_undefined ts) -> exists a b t, In (a, b) cells /\ cell tab a b = Some t /\ is_undefined t = true).
  { clear. induction cells as [|(x, y) cells IH]; intros ts E H; cbn -[simple_trans] in E; [injection E as <-; simpl in H; lia|].
    destruct (simple_trans tab y (SRun x)) as [v|] eqn:Ev; [|discriminate].
    destruct (otraverse (map (fun a0 => simple_trans tab (snd a0) (SRun (fst a0))) cells)) as [l|] eqn:El; [|discriminate].
    injection E as <-. simpl in H. rewrite simple_trans_at in Ev. destruct (is_undefined v) eqn:Eu.
    - exists x, y, v. simpl. auto.
    - destruct (IH l eq_refl H) as (a & b & t & Hin & Hc). exists a, b, t. simpl. tauto. }
  assert (G2 : forall cells ts, NoDup cells -> otraverse (map (fun a => simple_trans tab (snd a) (SRun (fst a))) cells) = Some ts ->
     1 < length (filter is_undefined ts) -> exists a b a' b' t t', (a, b) <> (a', b') /\ In (a, b) cells /\ In (a', b') cells /\
      cell tab a b = Some t /\ is_undefined t = true /\ cell tab a' b' = Some t' /\ is_undefined t' = true).
  { induction cells as [|(x, y) cells IH]; intros us Hd E1 H; cbn -[simple_trans] in E1; [injection E1 as <-; simpl in H; lia|].
    destruct (simple_trans tab y (SRun x)) as [v|] eqn:Ev; [|discriminate].
    destruct (otraverse (map (fun a0 => simple_trans tab (snd a0) (SRun (fst a0))) cells)) as [l|] eqn:El; [|discriminate].
    injection E1 as <-. simpl in H. rewrite simple_trans_at in Ev. inversion Hd as [|? ? Hn Hd']; subst.
    destruct (is_undefined v) eqn:Eu.
    - simpl in H. destruct (G1 cells l El ltac:(lia)) as (a & b & t & Hin & Hc & Hu').
      exists x, y, a, b, v, t. simpl. repeat split; auto. intros [= -> ->]. contradiction.
    - destruct (IH l Hd' eq_refl H) as (a & b & a' & b' & t & t' & H1 & H2 & H3 & H4). exists a, b, a', b', t, t'. simpl. tauto. }
  destruct (G2 (grid n m) ts (NoDup_grid n m) E Hu) as (a & b & a' & b' & t & t' & H1 & H2 & H3 & H4).
  apply In_grid2 in H2, H3. exists a, b, a', b', t, t'. simpl in *. tauto.
Qed.

(** Expanding the cell (i, j) lists, each once, the tables that have any transition there that
    writes a symbol at most one above the largest in use, goes to a state at most one above the
    largest in use, and goes right if nothing is defined yet; nothing if at most one cell is undefined
    and machines without halt are not wanted. *)
Theorem C42_children_exact n m tab allow i j :
  std_table n m tab -> i < n -> j < m ->
  let T := table_of tab in
  exists l, enum_children tab n m allow i j = Some l /\ NoDup l /\
    forall tab', In tab' l <->
      (allow = true \/ exists a b a' b', (a, b) <> (a', b') /\ undefined_at n m T a b /\ undefined_at n m T a' b') /\
      std_table n m tab' /\ (forall a b, (a, b) <> (i, j) -> cell tab' a b = cell tab a b) /\
      exists w d q, table_of tab' i j = Go w d q /\ w < m /\ q < n /\
        (q <= 1 \/ exists a b w' d' q', T a b = Go w' d' q' /\ q <= q' + 1) /\
        (w <= 1 \/ exists a b w' d' q', (T a b = Go w' d' q' \/ T a b = Stop w' d' true) /\ w <= w' + 1) /\
        (d = R \/ exists a b, defined_at n m T a b).
Proof.
  intros Hstd Hi Hj T. pose proof (proj1 Hstd) as Hr. destruct (all_trans_total n m tab Hr) as (ts & Ets).
  unfold enum_children. rewrite Ets. eexists. split; [reflexivity|]. split.
  { destruct (allow || Nat.ltb 1 (num_undefined ts))%bool; [|constructor].
    apply NoDup_map_inj; [|apply NoDup_choices]. intros ((q1 & w1) & d1) ((q2 & w2) & d2) _ _ Eq.
    apply (set_cell_inj n m) in Eq; auto. unfold running_trans in Eq. congruence. }
  assert (Hgo : (allow || Nat.ltb 1 (num_undefined ts))%bool = true <->
     (allow = true \/ exists a b a' b', (a, b) <> (a', b') /\ undefined_at n m T a b /\ undefined_at n m T a' b')).
  { rewrite orb_true_iff, Nat.ltb_lt. split; (intros [H|H]; [auto|right]).
    - destruct (undefined_two_inv n m tab ts Hr Ets H) as (a & b & a' & b' & t & t' & Hne & Ha & Hb & Ha' & Hb' & Ht & Hu & Ht' & Hu').
      exists a, b, a', b'. split; auto. split; (split; [auto|]; split; [auto|]).
      + now apply (std_undefined n m tab a b t Hstd Ht).
      + now apply (std_undefined n m tab a' b' t' Hstd Ht').
    - destruct H as (a & b & a' & b' & Hne & (Ha & Hb & Hu) & (Ha' & Hb' & Hu')).
      destruct (rect_cell n m tab a b Hr Ha Hb) as (t & Ht). destruct (rect_cell n m tab a' b' Hr Ha' Hb') as (t' & Ht').
      apply (undefined_two n m tab ts a b a' b' t t'); auto.
      + now apply (std_undefined n m tab a b t Hstd Ht).
      + now apply (std_undefined n m tab a' b' t' Hstd Ht'). }
  assert (Hq : forall q, q <= max_state_of ts + 1 <-> (q <= 1 \/ exists a b w' d' q', T a b = Go w' d' q' /\ q <= q' + 1)).
  { intros q. destruct (max_state_spec ts) as (M1 & M2). split.
    - intros H. destruct M2 as [M2|(t & Ht & Hu)]; [left; lia|].
      apply (all_trans_In n m tab ts t Ets) in Ht. destruct Ht as (a & b & Ha & Hb & Ht).
      pose proof (proj2 Hstd _ _ _ Ht) as Hc. destruct Hc as [|w d Hw|w d q0 Hw Hq0]; unfold used_state in Hu; simpl in Hu; try discriminate.
      + injection Hu as Hu. left. lia.
      + injection Hu as Hu. right. exists a, b, w, d, q0. split; [unfold T; now rewrite table_of_cell, Ht|]. lia.
    - intros [H|(a & b & w' & d' & q' & Hg & H)]; [lia|]. unfold T in Hg. rewrite table_of_cell in Hg.
      destruct (cell tab a b) as [t|] eqn:Ht; [|discriminate]. destruct (cell_bounds _ _ _ _ _ _ Hr Ht) as (Ha & Hb).
      assert (q' <= max_state_of ts); [|lia].
      apply (M1 t); [apply (all_trans_In n m tab ts t Ets); eauto|].
      pose proof (proj2 Hstd _ _ _ Ht) as Hc. destruct Hc; simpl in Hg; try discriminate. injection Hg as -> -> ->. reflexivity. }
  assert (Hw : forall w, w <= max_symbol_of ts + 1 <->
     (w <= 1 \/ exists a b w' d' q', (T a b = Go w' d' q' \/ T a b = Stop w' d' true) /\ w <= w' + 1)).
  { intros w. destruct (max_symbol_spec ts) as (M1 & M2). split.
    - intros H. destruct M2 as [M2|(t & Ht & Hu)]; [left; lia|].
      apply (all_trans_In n m tab ts t Ets) in Ht. destruct Ht as (a & b & Ha & Hb & Ht).
      pose proof (proj2 Hstd _ _ _ Ht) as Hc. destruct Hc as [|w0 d Hw|w0 d q0 Hw Hq0]; unfold used_symbol in Hu; simpl in Hu; try discriminate;
        injection Hu as Hu; right.
      + exists a, b, w0, d, 0. split; [right; unfold T; now rewrite table_of_cell, Ht|]. lia.
      + exists a, b, w0, d, q0. split; [left; unfold T; now rewrite table_of_cell, Ht|]. lia.
    - intros [H|(a & b & w' & d' & q' & Hg & H)]; [lia|]. unfold T in Hg. rewrite table_of_cell in Hg.
      destruct (cell tab a b) as [t|] eqn:Ht; [|destruct Hg; discriminate]. destruct (cell_bounds _ _ _ _ _ _ Hr Ht) as (Ha & Hb).
      assert (w' <= max_symbol_of ts); [|lia].
      apply (M1 t); [apply (all_trans_In n m tab ts t Ets); eauto|].
      pose proof (proj2 Hstd _ _ _ Ht) as Hc. destruct Hc; simpl in Hg; destruct Hg as [Hg|Hg]; try discriminate; injection Hg as Ew; subst; reflexivity. }
  assert (Hd : forall d, (a_trans_defined ts = false -> d = R) <-> (d = R \/ exists a b, defined_at n m T a b)).
  { intros d. split.
    - intros H. destruct (a_trans_defined ts) eqn:E; [right|auto]. apply existsb_exists in E. destruct E as (t & Ht & Hu).
      apply (all_trans_In n m tab ts t Ets) in Ht. destruct Ht as (a & b & Ha & Hb & Ht). exists a, b. split; auto. split; auto.
      intros w d0 Hs. assert (is_undefined t = true) by (apply (std_undefined n m tab a b t Hstd Ht); eauto).
      rewrite H0 in Hu. discriminate.
    - intros [H|(a & b & Ha & Hb & Hs)]; [auto|]. intros E. exfalso.
      destruct (rect_cell n m tab a b Hr Ha Hb) as (t & Ht).
      assert (a_trans_defined ts = true); [|congruence]. apply existsb_exists. exists t.
      split; [apply (all_trans_In n m tab ts t Ets); eauto|]. destruct (is_undefined t) eqn:Eu; auto.
      apply (std_undefined n m tab a b t Hstd Ht) in Eu. destruct Eu as (w & d0 & Eu). now apply (Hs w d0) in Eu. }
  intros tab'. rewrite <- Hgo. split.
  - destruct (allow || Nat.ltb 1 (num_undefined ts))%bool; [|intros []]. intros H. split; [reflexivity|].
    apply in_map_iff in H. destruct H as (((q & w) & d) & <- & Hc). apply In_choices in Hc. destruct Hc as (H1 & H2 & H3 & H4 & H5).
    split; [|split].
    + split; [apply rect_set, Hr|]. intros a b t. unfold set_trans. rewrite cell_set.
      destruct (Nat.eqb_spec i a), (Nat.eqb_spec j b); simpl; intros E; try (now apply (proj2 Hstd)).
      subst. destruct (cell tab a b); [|discriminate]. injection E as <-. now constructor.
    + intros a b Hne. unfold set_trans. rewrite cell_set.
      destruct (Nat.eqb_spec i a), (Nat.eqb_spec j b); simpl; auto. subst. congruence.
    + exists w, d, q. split; [now apply (table_set_trans n m)|]. split; [auto|]. split; [auto|].
      split; [now apply Hq|]. split; [now apply Hw|]. now apply Hd.
  - intros (Ha & Hstd' & Hother & w & d & q & Eg & H1 & H2 & H3 & H4 & H5). rewrite Ha. apply in_map_iff.
    exists (q, w, d). split; [|apply In_choices; repeat split; auto; [now apply Hq|now apply Hw|now apply Hd]].
    apply (rect_ext n m); [apply rect_set, Hr|apply Hstd'|]. intros a b Ha' Hb'. unfold set_trans. rewrite cell_set.
    destruct (Nat.eqb_spec i a), (Nat.eqb_spec j b); simpl; try (symmetry; apply Hother; congruence). subst a b.
    destruct (rect_cell n m tab i j Hr Hi Hj) as (t0 & ->).
    destruct (rect_cell n m tab' i j (proj1 Hstd') Hi Hj) as (t & Et). rewrite Et.
    rewrite table_of_cell, Et in Eg. pose proof (proj2 Hstd' _ _ _ Et) as Hc. destruct Hc; simpl in Eg; try discriminate.
    injection Eg as -> -> ->. reflexivity.
Qed.

(** the second table of 2x2, at B0: 2 states, 2 symbols, 2 directions *)
Example C42_example : exists tab l, blank_tm_enum 2 2 true = Some tab /\ enum_children tab 2 2 false 1 0 = Some l /\ length l = 8.
Proof. do 2 eexists. split; [vm_compute; reflexivity|]. split; vm_compute; reflexivity. Qed.

(** ** C43 *)

(** Every machine with [n] states and [m] symbols that stops after [k] steps is, up to names and
    reflection, a table of the tree: that table makes the same [k] steps, each configuration the
    image of the machine's, and stops there in an undefined cell; all its transitions are the
    machine's. *)
Theorem C43_no_machine_missed n m allow M k c' w d e :
  0 < n -> 0 < m -> in_range n m M ->
  steps M k initial = Some c' -> M (st c') (tp c' (hd c')) = Stop w d e ->
  exists tab f g b, node n m allow false tab /\ permutes n f /\ permutes m g /\ f 0 = 0 /\ g 0 = 0 /\
    sub_renamed f g b (table_of tab) M /\
    (forall i c1, i <= k -> steps M i initial = Some c1 ->
       exists c, steps (table_of tab) i initial = Some c /\ renames f g b c c1) /\
    exists q s t, halts_at (table_of tab) initial (S k) q s false t /\ f q = st c' /\ g s = tp c' (hd c').
Proof.
  intros Hn Hm HM Ek Es. destruct (root_free n m M Hn Hm) as (root & Er & Hi).
  destruct (in_range_steps n m M HM k initial c' Hn ltac:(intros z; exact Hm) Ek) as (Hs & Ht).
  destruct (complete_gen n m M allow false HM root k c') as (tab & f & g & b & H); eauto 10.
  exists tab, f, g, b. repeat (split; [apply H|]). destruct H as (_ & _ & _ & _ & _ & _ & _ & H). eauto.
Qed.

(** The default start (A0 -> 1RB, option first_1rb): the same for all machines whose first transition
    writes a symbol other than blank and leaves the first state. *)
Theorem C43_no_machine_missed_1rb n m allow M k c' w d e w0 d0 q0 :
  1 < n -> 1 < m -> in_range n m M -> M 0 0 = Go w0 d0 q0 -> w0 <> 0 -> q0 <> 0 ->
  steps M k initial = Some c' -> M (st c') (tp c' (hd c')) = Stop w d e ->
  exists tab f g b, node n m allow true tab /\ permutes n f /\ permutes m g /\ f 0 = 0 /\ g 0 = 0 /\
    sub_renamed f g b (table_of tab) M /\
    (forall i c1, i <= k -> steps M i initial = Some c1 ->
       exists c, steps (table_of tab) i initial = Some c /\ renames f g b c c1) /\
    exists q s t, halts_at (table_of tab) initial (S k) q s false t /\ f q = st c' /\ g s = tp c' (hd c').
Proof.
  intros Hn Hm HM E0 Hw0 Hq0 Ek Es. destruct (root_1rb n m M HM w0 d0 q0 Hn Hm E0 Hw0 Hq0) as (root & Er & Hi).
  destruct (in_range_steps n m M HM k initial c' ltac:(simpl; lia) ltac:(intros z; simpl; lia) Ek) as (Hs & Ht).
  destruct (complete_gen n m M allow true HM root k c') as (tab & f & g & b & H); eauto 10.
  exists tab, f, g, b. repeat (split; [apply H|]). destruct H as (_ & _ & _ & _ & _ & _ & _ & H). eauto.
Qed.

(** Machines that run on: for every number of steps there is a table that follows them so far, if
    machines without halt are wanted or the machine has a halting cell somewhere. *)
Theorem C43_follows n m allow M k c' :
  0 < n -> 0 < m -> in_range n m M ->
  allow = true \/ (exists i j w d e, i < n /\ j < m /\ M i j = Stop w d e) ->
  steps M k initial = Some c' ->
  exists tab f g b, node n m allow false tab /\ permutes n f /\ permutes m g /\ f 0 = 0 /\ g 0 = 0 /\
    sub_renamed f g b (table_of tab) M /\
    (forall i c1, i <= k -> steps M i initial = Some c1 ->
       exists c, steps (table_of tab) i initial = Some c /\ renames f g b c c1).
Proof.
  intros Hn Hm HM Ha Ek. destruct (root_free n m M Hn Hm) as (root & Er & Hi).
  destruct (complete_gen n m M allow false HM root k c') as (tab & f & g & b & H); eauto 10.
  exists tab, f, g, b. repeat (split; [apply H|]). apply H.
Qed.

(** and the tree has it only once: two tables of the tree that are both, up to names, part of the same
    machine and stop at the same time (or both never) are the same *)
Theorem C43_no_machine_twice n m allow first M tab1 tab2 f1 g1 b1 f2 g2 b2 :
  0 < n -> 0 < m -> node n m allow first tab1 -> node n m allow first tab2 ->
  permutes n f1 -> permutes n f2 -> permutes m g1 -> permutes m g2 ->
  f1 0 = 0 -> f2 0 = 0 -> g1 0 = 0 -> g2 0 = 0 ->
  sub_renamed f1 g1 b1 (table_of tab1) M -> sub_renamed f2 g2 b2 (table_of tab2) M ->
  (forall k, steps (table_of tab1) k initial = None <-> steps (table_of tab2) k initial = None) ->
  tab1 = tab2.
Proof.
  intros Hn Hm N1 N2 (F1 & _) (F2 & _) (G1 & _) (G2 & _). now apply (nodes_unique n m allow first M tab1 tab2).
Qed.

(** the 2-state 2-symbol champion, with its states renamed and mirrored, as a machine of the class *)
Definition mirrored_bb2 : table := fun i j =>
  match i, j with
  | 0, 0 => Go 1 L 1 | 0, 1 => Go 1 R 1
  | 1, 0 => Go 1 R 0 | _, _ => Stop 1 R true
  end.
Example C43_example : exists k c', in_range 2 2 mirrored_bb2 /\ steps mirrored_bb2 k initial = Some c' /\
  mirrored_bb2 (st c') (tp c' (hd c')) = Stop 1 R true /\ k = 5.
Proof.
  exists 5. destruct (steps mirrored_bb2 5 initial) as [c'|] eqn:E; [|vm_compute in E; discriminate].
  exists c'. split.
  - intros [|[|i]] [|[|j]] w d q Hi Hj; simpl; try lia; intros [= <- <- <-]; lia.
  - split; [reflexivity|]. split; [|reflexivity]. vm_compute in E. injection E as <-. reflexivity.
Qed.

(** ** C44 *)

(** Whatever the queue discipline and however children are shuffled: if the jobs that come from the
    input are finitely many, the enumeration without limit ends with an empty queue, has run each of them
    once, and has written, in some order, exactly their records. *)
Theorem C44_all_once {J Rec} (expand : J -> list J) (written unrun : J -> Rec) shuffle d inputs nodes :
  (forall k l, Permutation (shuffle k l) l) -> forest expand inputs nodes ->
  forall fuel, length nodes <= fuel -> exists out,
    enum_main J Rec expand written unrun shuffle d 0 fuel 0 inputs [] [] = Some (length nodes, [], out) /\
    Permutation out (map written nodes).
Proof.
  intros Hs F fuel Hf. destruct (main_all expand written unrun shuffle Hs d inputs nodes fuel 0 [] F Hf) as (out & E & P). eauto.
Qed.
(** and it ends only then *)
Theorem C44_ends_iff {J Rec} (expand : J -> list J) (written unrun : J -> Rec) shuffle d inputs :
  (forall k l, Permutation (shuffle k l) l) ->
  (exists fuel r, enum_main J Rec expand written unrun shuffle d 0 fuel 0 inputs [] [] = Some r) <-> exists nodes, forest expand inputs nodes.
Proof.
  intros Hs. split.
  - intros (fuel & r & E). eapply main_finite; eauto.
  - intros (nodes & F). destruct (C44_all_once expand written unrun shuffle d inputs nodes Hs F (length nodes) (le_n _)) as (out & E & _). eauto.
Qed.
(** With a limit: the jobs that were run and the jobs left over are, together, the input and the
    children of those run, each once; every one of them is written once; not more than the limit are run,
    and exactly so many if some are left; running the rest later completes the work. *)
Theorem C44_limit {J Rec} (expand : J -> list J) (written unrun : J -> Rec) shuffle d N inputs fuel :
  (forall k l, Permutation (shuffle k l) l) -> 0 < N -> N <= fuel ->
  exists ran left out,
    enum_main J Rec expand written unrun shuffle d N fuel 0 inputs [] [] = Some (length ran + length left, [], out) /\
    Permutation (inputs ++ concat (map expand ran)) (ran ++ left) /\
    Permutation out (map written ran ++ map unrun left) /\
    length ran <= N /\ (left <> [] -> length ran = N) /\
    forall nodes, forest expand inputs nodes -> exists rest, forest expand left rest /\ Permutation nodes (ran ++ rest).
Proof.
  intros Hs HN Hf. destruct (main_limit expand written unrun shuffle Hs d N HN inputs fuel 0 [] Hf) as (ran & left & out & E & P & Q & A & B & C & D).
  exists ran, left, out. simpl in *. specialize (A ltac:(lia)). repeat split; auto. intros H. specialize (C H). lia.
Qed.
(** the machines: starting from the first table, with a verdict that never calls a machine halting
    that is not, the records written without limit are those of nodes of the tree, none twice, and of all
    of them if no halting table goes unnoticed *)
Theorem C44_tree n m allow first verdict Rec (written unrun : ttable -> Rec) shuffle d root nodes fuel :
  0 < n -> 0 < m ->
  (forall tab i j, verdict tab = Some (i, j) -> exists k b t, halts_at (table_of tab) initial k i j b t) ->
  (forall k l, Permutation (shuffle k l) l) ->
  blank_tm_enum n m first = Some root -> forest (expand_tm n m allow verdict) [root] nodes -> length nodes <= fuel ->
  (exists out, enum_main ttable Rec (expand_tm n m allow verdict) written unrun shuffle d 0 fuel 0 [root] [] [] = Some (length nodes, [], out) /\
     Permutation out (map written nodes)) /\
  NoDup nodes /\ (forall tab, In tab nodes -> node n m allow first tab) /\
  ((forall tab k i j b t, node n m allow first tab -> halts_at (table_of tab) initial k i j b t -> verdict tab <> None) ->
   forall tab, node n m allow first tab -> In tab nodes).
Proof.
  intros Hn Hm Hv Hs Er F Hf. split; [now apply C44_all_once|]. now apply (enum_tree n m allow verdict Hv first root).
Qed.

(** a run of the model: 1 state, 2 symbols *)
Definition verdict_1x2 (tab : ttable) : option (nat * nat) :=
  match table_of tab 0 0 with Stop _ _ _ => Some (0, 0) | Go _ _ _ => None end.
Example C44_example : exists root out, blank_tm_enum 1 2 false = Some root /\
  enum_main ttable ttable (expand_tm 1 2 false verdict_1x2) (fun t => t) (fun t => t) (fun _ l => l) LIFO 0 10 0 [root] [] [] = Some (3, [], out) /\
  (forall tab i j, verdict_1x2 tab = Some (i, j) -> exists k b t, halts_at (table_of tab) initial k i j b t).
Proof.
  do 2 eexists. split; [vm_compute; reflexivity|]. split; [vm_compute; reflexivity|].
  unfold verdict_1x2. intros tab i j H. destruct (table_of tab 0 0) as [|w d b] eqn:E; [discriminate|].
  injection H as <- <-. exists 1, b, (put (fun _ => 0) 0%Z w), 0, initial, w, d. repeat split; auto.
Qed.

Print Assumptions C42_children_exact.
Print Assumptions C43_no_machine_missed.
Print Assumptions C43_no_machine_missed_1rb.
Print Assumptions C43_follows.
Print Assumptions C43_no_machine_twice.
Print Assumptions C44_all_once.
Print Assumptions C44_ends_iff.
Print Assumptions C44_limit.
Print Assumptions C44_tree.
