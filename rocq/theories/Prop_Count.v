(** * Property C53: counting the machines that the tables of the tree stand for *)
Require Import ZArith List Lia Bool Arith Permutation.
From Verif Require Import Spec_TM Spec_Rename M_Turing_Machine M_IO M_Enum M_Count P_Macro P_Quint P_IO P_Tree P_Complete P_Unique
  P_Complete2 P_Queue P_EnumTree P_TNF P_TNF2 P_Count P_CountSem.
Import ListNotations.
Open Scope nat_scope.

(** ** the statistics of a table of the tree *)

Lemma run_max_spec f ts v : (forall t, In t ts -> is_running t = true -> f t <= v) ->
  (exists t, In t ts /\ is_running t = true /\ f t = v) -> run_max f ts = v.
Proof.
  intros Hle (t & Ht & Hr & E). apply Nat.le_antisymm.
  - clear -Hle. induction ts as [|x ts IH]; [unfold run_max; simpl; lia|]. rewrite run_max_cons.
    assert (run_max f ts <= v) by (apply IH; intros; apply Hle; simpl; auto).
    destruct (is_running x) eqn:E; [|auto]. specialize (Hle x (or_introl eq_refl) E). lia.
  - clear Hle. induction ts as [|x ts IH]; [destruct Ht|]. rewrite run_max_cons. destruct Ht as [-> |Ht].
    + rewrite Hr. lia.
    + specialize (IH Ht). destruct (is_running x); lia.
Qed.

Lemma filter_none {A} (P : A -> bool) l : (forall x, In x l -> P x = false) -> filter P l = [].
Proof. induction l as [|x l IH]; simpl; intros H; auto. rewrite (H x) by auto. auto. Qed.
Lemma rect_bounds n m (tab : ttable) i j t : rect n m tab -> cell tab i j = Some t -> i < n /\ j < m.
Proof. intros H E. exact (cell_bounds _ _ _ _ _ _ H E). Qed.

(** a table of the tree that starts with A0 -> 1RB *)
Lemma node_1rb n m allow tab : 0 < n -> 0 < m -> node n m allow true tab -> table_of tab 0 0 = Go 1 R 1.
Proof.
  intros Hn Hm H. destruct (node_desc _ _ _ _ _ H) as (root & E & D). destruct (root_tinv _ _ _ _ E Hn Hm) as (Hi & H00).
  exact (desc_extends _ _ _ _ _ D _ _ Hi _ _ _ _ _ H00).
Qed.

Lemma tinv_open n m a c tab ts : tinv n m a c tab -> all_trans tab n m = Some ts -> open_ts ts.
Proof.
  intros H E t Ht. apply (all_trans_In n m tab ts t E) in Ht. destruct Ht as (i & j & _ & _ & Ht).
  destruct (ti_cell _ _ _ _ _ H _ _ _ Ht) as [-> | (w & d & q & -> & _)]; auto.
Qed.

Lemma go_cell n m a c tab i j w d q : tinv n m a c tab -> table_of tab i j = Go w d q -> cell tab i j = Some (running_trans i w d q).
Proof.
  intros H E. rewrite table_of_cell in E. destruct (cell tab i j) as [t|] eqn:Ec; [|discriminate].
  destruct (ti_cell _ _ _ _ _ H i j t Ec) as [-> | (w' & d' & q' & -> & _)]; [discriminate|]. simpl in E. congruence.
Qed.

Lemma numbered_used n m a c tab ts : numbered n m a c tab -> table_of tab 0 0 = Go 1 R 1 -> all_trans tab n m = Some ts ->
  2 <= a <= n /\ 2 <= c <= m /\ run_max out_state ts + 1 = a /\ run_max (@t_sym nat sstate) ts + 1 = c.
Proof.
  intros Hnu H00 E. pose proof (nu_inv _ _ _ _ _ Hnu) as H. pose proof (tinv_go _ _ _ _ _ _ _ _ _ _ H H00) as B.
  pose proof (ti_pos _ _ _ _ _ H) as P. split; [lia|]. split; [lia|].
  assert (Hin : forall i j w d q, table_of tab i j = Go w d q -> In (running_trans i w d q) ts).
  { intros i j w d q Eg. apply (all_trans_In n m tab ts _ E). exists i, j. pose proof (go_cell _ _ _ _ _ _ _ _ _ _ H Eg) as Ec.
    destruct (rect_bounds _ _ _ _ _ _ (ti_rect _ _ _ _ _ H) Ec). auto. }
  assert (Hall : forall t, In t ts -> is_running t = true -> out_state t < a /\ t_sym t < c).
  { intros t Ht Hr. apply (all_trans_In n m tab ts t E) in Ht. destruct Ht as (i & j & _ & _ & Ht).
    destruct (ti_cell _ _ _ _ _ H _ _ _ Ht) as [-> | (w & d & q & -> & Hb)]; [discriminate|]. cbn; tauto. }
  split.
  - rewrite (run_max_spec out_state ts (a - 1)); [lia| |].
    + intros t Ht Hr. destruct (Hall t Ht Hr). lia.
    + destruct (nu_states _ _ _ _ _ Hnu (a - 1) ltac:(lia)) as (t & x & Ex & Hx). destruct t as [|t].
      * simpl in Ex. injection Ex as <-. simpl in Hx. lia.
      * rewrite steps_S in Ex. destruct (steps (table_of tab) t initial) as [y|]; [|discriminate]. unfold step in Ex.
        destruct (table_of tab (st y) (tp y (hd y))) as [w d q|] eqn:Eg; [|discriminate]. injection Ex as <-. simpl in Hx.
        exists (running_trans (st y) w d q). split; [eapply Hin; eauto|]. auto.
  - rewrite (run_max_spec (@t_sym nat sstate) ts (c - 1)); [lia| |].
    + intros t Ht Hr. destruct (Hall t Ht Hr). lia.
    + destruct (nu_symbols _ _ _ _ _ Hnu (c - 1) ltac:(lia)) as (t & y & d & q & Ey & Eg).
      exists (running_trans (st y) (c - 1) d q). split; [eapply Hin; eauto|]. auto.
Qed.

(** the machine fixes the names *)
Lemma numbered_agree n m a c tab : numbered n m a c tab -> forall M f1 g1 f2 g2,
  f1 0 = 0 -> g1 0 = 0 -> f2 0 = 0 -> g2 0 = 0 ->
  sub_renamed f1 g1 false (table_of tab) M -> sub_renamed f2 g2 false (table_of tab) M ->
  (forall i, i < a -> f1 i = f2 i) /\ (forall j, j < c -> g1 j = g2 j).
Proof.
  intros Hnu M f1 g1 f2 g2 F1 G1 F2 G2 S1 S2.
  assert (Hrun : forall t x, steps (table_of tab) t initial = Some x -> exists y, renames f1 g1 false x y /\ renames f2 g2 false x y).
  { intros t x Ex. destruct (renames_steps _ _ _ _ _ S1 t initial initial x) as (y & Ey & R1); auto; [now apply renames_initial|].
    destruct (renames_steps _ _ _ _ _ S2 t initial initial x) as (y2 & Ey2 & R2); auto; [now apply renames_initial|].
    exists y. split; auto. congruence. }
  split.
  - intros i Hi. destruct (nu_states _ _ _ _ _ Hnu i Hi) as (t & x & Ex & <-). destruct (Hrun t x Ex) as (y & (R1 & _) & (R2 & _)). congruence.
  - intros j Hj. destruct j as [|j]; [congruence|].
    destruct (nu_symbols _ _ _ _ _ Hnu (S j) ltac:(lia)) as (t & x & d & q & Ex & Eg).
    destruct (Hrun t x Ex) as (y & R1 & R2). pose proof (renames_read _ _ _ _ _ R1) as A1. pose proof (renames_read _ _ _ _ _ R2) as A2.
    destruct R1 as (B1 & _), R2 as (B2 & _). apply S1 in Eg as X1. apply S2 in Eg as X2. unfold read in *.
    rewrite <- A1, <- B1 in X1. rewrite <- A2, <- B2 in X2. congruence.
Qed.

(** ** the free and the halting cells *)

Lemma all_trans_filter n m tab ts (P : transition nat sstate -> bool) (Q : nat * nat -> bool) : all_trans tab n m = Some ts ->
  (forall i j t, cell tab i j = Some t -> P t = Q (i, j)) -> length (filter P ts) = length (filter Q (grid n m)).
Proof.
  intros E H. unfold all_trans in E. revert ts E. induction (grid n m) as [|(i, j) l IH]; intros ts E; cbn [map otraverse] in E.
  - injection E as <-. reflexivity.
  - cbn [fst snd] in E. rewrite simple_trans_at in E. destruct (cell tab i j) as [t|] eqn:Ec; [|discriminate].
    destruct (otraverse _) as [r|] eqn:Er in E; [|discriminate]. injection E as <-. cbn [filter]. rewrite (H i j t Ec).
    destruct (Q (i, j)); cbn [length]; rewrite (IH r Er); reflexivity.
Qed.

(** every cell is undefined, running, or the standard halt *)
Definition plain_cells (tab : ttable) : Prop := forall i j t, cell tab i j = Some t ->
  t = undefined_trans j i \/ t = halt_trans i j \/ exists w d q, t = running_trans i w d q.

Lemma count_machines n m a c tab ts allow : rect n m tab -> all_trans tab n m = Some ts -> plain_cells tab ->
  2 <= a <= n -> 2 <= c <= m -> run_max out_state ts + 1 = a -> run_max (@t_sym nat sstate) ts + 1 = c ->
  stop_cells n m (table_of tab) <= 1 ->
  count tab n m allow = Some (Z.of_nat (length (machines n m a c (table_of tab) allow))).
Proof.
  intros Hr Ets Hp Ha Hc Ea Ec Hs. rewrite length_machines by auto. unfold count. rewrite Ets. unfold count_of.
  assert (E1 : forallb countable ts = true).
  { apply forallb_forall. intros t Ht. apply (all_trans_In n m tab ts t Ets) in Ht. destruct Ht as (i & j & _ & _ & Ht).
    destruct (Hp i j t Ht) as [-> |[-> |(w & d & q & ->)]]; reflexivity. }
  assert (E2 : num_undefined ts = free_cells n m (table_of tab)).
  { apply (all_trans_filter n m tab ts); auto. intros i j t Ht. cbn [fst snd]. rewrite table_of_cell, Ht.
    destruct (Hp i j t Ht) as [-> |[-> |(w & d & q & ->)]]; reflexivity. }
  assert (E3 : length (filter is_halt ts) = stop_cells n m (table_of tab)).
  { apply (all_trans_filter n m tab ts); auto. intros i j t Ht. cbn [fst snd]. rewrite table_of_cell, Ht.
    destruct (Hp i j t Ht) as [-> |[-> |(w & d & q & ->)]]; reflexivity. }
  assert (E4 : existsb is_halt ts = Nat.eqb (stop_cells n m (table_of tab)) 1).
  { rewrite <- E3 in Hs |- *. clear -Hs. induction ts as [|t ts IH]; simpl in *; auto. destruct (is_halt t); simpl in *; [|auto].
    destruct (filter is_halt ts); simpl in *; [reflexivity|lia]. }
  rewrite E1, E2, E4, <- !(Nat2Z.inj_add _ 1), Ea, Ec, !fact2_ways by auto. f_equal.
Qed.

(** the tables that the enumeration writes: those of the tree, with the cell where they stop made a halt
    if they were found to halt *)
Inductive listed (n m : nat) (allow : bool) : ttable -> Prop :=
| listed_open tab : node n m allow true tab -> listed n m allow tab
| listed_halt tab k i j b t : node n m allow true tab -> halts_at (table_of tab) initial k i j b t ->
    listed n m allow (set_halt_trans tab i j).

Lemma stops_in n m a c allow tab k i j b t : 0 < n -> 0 < m -> node n m allow true tab -> tinv n m a c tab ->
  halts_at (table_of tab) initial k i j b t -> i < a /\ j < c /\ i < n /\ j < m /\ cell tab i j = Some (undefined_trans j i).
Proof.
  intros Hn Hm Hnode H (k' & x & w0 & d0 & _ & Ek & -> & -> & Es & _).
  destruct (tinv_bounds _ _ _ _ _ _ _ H Ek) as (Hi & Hj). specialize (Hj (hd x)). destruct (ti_pos _ _ _ _ _ H) as (Ha & Hc).
  repeat split; try lia.
  destruct (rect_cell n m tab (st x) (tp x (hd x)) (ti_rect _ _ _ _ _ H) ltac:(lia) ltac:(lia)) as (t0 & Et0). rewrite Et0. f_equal.
  destruct (ti_cell _ _ _ _ _ H _ _ _ Et0) as [E|(w1 & d1 & q1 & -> & _)]; auto.
  rewrite table_of_cell, Et0 in Es. discriminate.
Qed.

(** ** C53 *)

(** The number that [count] returns for a table that the enumeration writes is the number of machines
    the table stands for: the machines with [n] states and [m] symbols, first transition 1RB, all halts
    1RH, exactly one halt (or at most one, if [allow]), that are the table, filled up in any way,
    with the states and the symbols other than the first two renamed in any way. *)
Theorem C53_count_exact n m allow tab : 2 <= n -> 2 <= m -> listed n m allow tab ->
  exists machines : list (list action),
    NoDup machines /\
    (forall l, In l machines <-> in_class n m allow l /\ stands_for n m (table_of tab) (machine_of m l)) /\
    count tab n m allow = Some (Z.of_nat (length machines)).
Proof.
  intros Hn Hm HL. destruct HL as [tab Hnode|tab k i j b t Hnode Hh].
  - destruct (node_numbered n m allow true tab ltac:(lia) ltac:(lia) Hnode) as (a & c & Hnu). pose proof (nu_inv _ _ _ _ _ Hnu) as H.
    pose proof (node_1rb n m allow tab ltac:(lia) ltac:(lia) Hnode) as H00.
    destruct (all_trans_total n m tab (ti_rect _ _ _ _ _ H)) as (ts & Ets).
    destruct (numbered_used n m a c tab ts Hnu H00 Ets) as (Ha & Hc & Ea & Ec).
    assert (Hp : plain_cells tab).
    { intros i j t Et. destruct (ti_cell _ _ _ _ _ H _ _ _ Et) as [-> |(w & d & q & -> & _)]; auto. right. right. eauto. }
    assert (Hgo : forall i j w d q, table_of tab i j = Go w d q -> i < a /\ j < c /\ w < c /\ q < a) by (intros; eapply tinv_go; eauto).
    assert (Hnohalt : forall i j w d, table_of tab i j <> Stop w d true).
    { intros i j w d E. rewrite table_of_cell in E. destruct (cell tab i j) as [t|] eqn:Et; [|discriminate].
      destruct (ti_cell _ _ _ _ _ H _ _ _ Et) as [-> |(w' & d' & q' & -> & _)]; discriminate. }
    assert (Hs : stop_cells n m (table_of tab) <= 1).
    { unfold stop_cells. rewrite filter_none; [simpl; lia|].
      intros (i, j) _. cbn [fst snd]. destruct (table_of tab i j) as [|w d [|]] eqn:E; auto. now elim (Hnohalt i j w d). }
    exists (machines n m a c (table_of tab) allow). split; [|split].
    + apply NoDup_machines; auto. now apply (numbered_agree n m).
    + intros l. apply In_machines; auto. intros i j w d E. now elim (Hnohalt i j w d).
    + eapply count_machines; eauto. apply H.
  - destruct (node_numbered n m allow true tab ltac:(lia) ltac:(lia) Hnode) as (a & c & Hnu). pose proof (nu_inv _ _ _ _ _ Hnu) as H.
    pose proof (node_1rb n m allow tab ltac:(lia) ltac:(lia) Hnode) as H00.
    destruct (all_trans_total n m tab (ti_rect _ _ _ _ _ H)) as (ts & Ets).
    destruct (numbered_used n m a c tab ts Hnu H00 Ets) as (Ha & Hc & Ea & Ec).
    destruct (stops_in n m a c allow tab k i j b t ltac:(lia) ltac:(lia) Hnode H Hh) as (Hi & Hj & Hi' & Hj' & Eu).
    pose proof (ti_rect _ _ _ _ _ H) as Hr.
    assert (Hcell : forall x y, cell (set_halt_trans tab i j) x y = if (Nat.eqb i x && Nat.eqb j y)%bool then Some (halt_trans i j) else cell tab x y).
    { intros x y. unfold set_halt_trans. rewrite cell_set. destruct (Nat.eqb_spec i x), (Nat.eqb_spec j y); simpl; auto. subst x y.
      unfold ttable, trans_row in *. now rewrite Eu. }
    assert (Htab : forall x y, table_of (set_halt_trans tab i j) x y = if (Nat.eqb i x && Nat.eqb j y)%bool then Stop 1 R true else table_of tab x y).
    { intros x y. rewrite !table_of_cell, Hcell. destruct (Nat.eqb i x && Nat.eqb j y)%bool; reflexivity. }
    assert (Hgo' : forall x y w d q, table_of (set_halt_trans tab i j) x y = Go w d q <-> table_of tab x y = Go w d q).
    { intros x y w d q. rewrite Htab. destruct (Nat.eqb_spec i x), (Nat.eqb_spec j y); simpl; try tauto. subst x y.
      rewrite table_of_cell, Eu. simpl. split; discriminate. }
    destruct (all_trans_set n m tab i j ts Hr Hi' Hj' Ets) as (ts1 & t0 & ts2 & -> & Et0 & Hset).
    rewrite Eu in Et0. injection Et0 as <-.
    rewrite !run_max_app, !run_max_cons in Ea, Ec. cbn [is_running undefined_trans t_cond] in Ea, Ec.
    assert (Hp : plain_cells (set_halt_trans tab i j)).
    { intros x y t1 Et. rewrite Hcell in Et. destruct (Nat.eqb_spec i x), (Nat.eqb_spec j y); simpl in Et;
        try (destruct (ti_cell _ _ _ _ _ H _ _ _ Et) as [-> |(w & d & q & -> & _)]; [auto|right; right; eauto]).
      injection Et as <-. subst. auto. }
    assert (Hs : stop_cells n m (table_of (set_halt_trans tab i j)) <= 1).
    { unfold stop_cells. pose proof (NoDup_filter (fun ij => match table_of (set_halt_trans tab i j) (fst ij) (snd ij) with Stop _ _ true => true | _ => false end) (NoDup_grid n m)) as Nd.
      assert (Hinc : incl (filter (fun ij => match table_of (set_halt_trans tab i j) (fst ij) (snd ij) with Stop _ _ true => true | _ => false end) (grid n m)) [(i, j)]).
      { intros (x, y) Hx. apply filter_In in Hx. destruct Hx as (_ & Hx). cbn [fst snd] in Hx. rewrite Htab in Hx.
        destruct (Nat.eqb_spec i x), (Nat.eqb_spec j y); simpl in Hx; [subst; simpl; auto| | |];
          (rewrite table_of_cell in Hx; destruct (cell tab x y) as [t1|] eqn:Et; [|discriminate];
           destruct (ti_cell _ _ _ _ _ H _ _ _ Et) as [-> |(w & d & q & -> & _)]; discriminate). }
      apply (NoDup_incl_length Nd) in Hinc. exact Hinc. }
    set (T := table_of (set_halt_trans tab i j)) in *.
    exists (machines n m a c T allow). split; [|split].
    + apply NoDup_machines; auto.
      * intros x y w d q E. apply Hgo' in E. eapply tinv_go; eauto.
      * intros M f1 g1 f2 g2 F1 G1 F2 G2 S1 S2. apply (numbered_agree n m a c tab Hnu M f1 g1 f2 g2); auto.
        -- intros x y w d q E. apply S1. now apply Hgo'.
        -- intros x y w d q E. apply S2. now apply Hgo'.
    + intros l. apply In_machines; auto.
      * unfold T. rewrite Htab. destruct (Nat.eqb_spec i 0), (Nat.eqb_spec j 0); simpl; auto. subst i j.
        rewrite table_of_cell, Eu in H00. discriminate.
      * intros x y w d q E. apply Hgo' in E. eapply tinv_go; eauto.
      * intros x y w d E. unfold T in E. rewrite Htab in E. destruct (Nat.eqb_spec i x), (Nat.eqb_spec j y); simpl in E; [subst; lia| | |];
          (rewrite table_of_cell in E; destruct (cell tab x y) as [t1|] eqn:Et; [|discriminate];
           destruct (ti_cell _ _ _ _ _ H _ _ _ Et) as [-> |(w' & d' & q' & -> & _)]; discriminate).
    + apply (count_machines n m a c (set_halt_trans tab i j) (ts1 ++ halt_trans i j :: ts2)); auto;
        try (rewrite run_max_app, run_max_cons; assumption).
      * apply rect_set, Hr.
      * unfold set_halt_trans. apply Hset.
Qed.

(** The root stands for all machines of the class; their number is the formula of the file's header. *)
Theorem C53_root n m allow root : 2 <= n -> 2 <= m -> blank_tm_enum n m true = Some root ->
  let QS := (Z.of_nat n * Z.of_nat m)%Z in
  count root n m allow = Some ((QS - 1) * (2 * QS) ^ (QS - 2) + (if allow then (2 * QS) ^ (QS - 1) else 0))%Z /\
  forall l, in_class n m allow l -> stands_for n m (table_of root) (machine_of m l).
Proof.
  intros Hn Hm E QS. destruct (root_tinv n m true root E ltac:(lia) ltac:(lia)) as (H & H00).
  assert (Hcells : forall i j, i < n -> j < m -> cell root i j = Some (if (Nat.eqb i 0 && Nat.eqb j 0)%bool then running_trans 0 1 R 1 else undefined_trans j i)).
  { intros i j Hi Hj. unfold blank_tm_enum in E. rewrite (quintuples_cells _ _ _ _ i j E Hi Hj).
    unfold last_row, row_for, find, rev, app. cbn [q_state_in q_symbol_in q_symbol_out]. rewrite andb_true_r.
    destruct i, j; reflexivity. }
  split.
  - assert (Ets : all_trans root n m = Some (running_trans 0 1 R 1 :: map (fun ij => undefined_trans (snd ij) (fst ij)) (tl (grid n m)))).
    { unfold all_trans. destruct n as [|n]; [lia|]. destruct m as [|m]; [lia|]. 
      change (map (fun a => simple_trans root (snd a) (SRun (fst a))) (grid (S n) (S m))) with
        (simple_trans root 0 (SRun 0) :: map (fun a => simple_trans root (snd a) (SRun (fst a))) (tl (grid (S n) (S m)))).
      cbn [otraverse]. rewrite simple_trans_at, Hcells by lia. cbn [Nat.eqb andb].
      rewrite (otraverse_map _ (fun ij => undefined_trans (snd ij) (fst ij))); [reflexivity|].
      intros (i, j) Hij. cbn [fst snd]. rewrite simple_trans_at.
      assert (Hg : In (i, j) (grid (S n) (S m))) by (unfold grid in *; cbn [list_prod seq map app tl] in *; right; exact Hij).
      pose proof (NoDup_grid (S n) (S m)) as Nd. apply In_grid2 in Hg. cbn [fst snd] in Hg. rewrite Hcells by tauto. f_equal.
      destruct (Nat.eqb_spec i 0), (Nat.eqb_spec j 0); simpl; auto. subst. exfalso.
      unfold grid in *. cbn [list_prod seq map app tl] in *. inversion Nd; auto. }
    unfold count. rewrite Ets.
    assert (Hlen : length (tl (grid n m)) = n * m - 1) by (rewrite <- (length_grid n m); destruct (grid n m); simpl; lia).
    set (us := map (fun ij => undefined_trans (snd ij) (fst ij)) (tl (grid n m))).
    assert (Hu : forall f, run_max f us = 0).
    { intros f. unfold us. clear. induction (tl (grid n m)) as [|ij l IH]; [reflexivity|]. cbn [map]. rewrite run_max_cons. exact IH. }
    assert (Hnu : num_undefined (running_trans 0 1 R 1 :: us) = n * m - 1).
    { change (num_undefined (running_trans 0 1 R 1 :: us)) with (num_undefined us). rewrite <- Hlen. unfold us, num_undefined. clear.
      induction (tl (grid n m)) as [|ij l IH]; [reflexivity|]. cbn [map filter is_undefined undefined_trans t_cond length]. congruence. }
    rewrite (count_open n m allow _ 2 2); try lia.
    + rewrite Hnu. f_equal. unfold ways. cbn [Nat.sub prod_down]. unfold mult. rewrite (proj2 (Nat.leb_le 1 (n * m - 1))) by nia.
      assert (EQ : Z.of_nat (n * m - 1) = (QS - 1)%Z) by (unfold QS; nia). rewrite EQ. replace (QS - 1 - 1)%Z with (QS - 2)%Z by lia.
      replace (2 * Z.of_nat n * Z.of_nat m)%Z with (2 * QS)%Z by (unfold QS; ring). rewrite !Z.mul_1_l. reflexivity.
    + intros t [<-|Ht]; [right; reflexivity|]. apply in_map_iff in Ht. destruct Ht as (ij & <- & _). left. reflexivity.
    + rewrite run_max_cons, Hu. reflexivity.
    + rewrite run_max_cons, Hu. reflexivity.
  - intros l (El & Hok & H0 & Hs). exists (fun i => i), (fun j => j). split; [|split].
    1,2: split; [intros x y _ _ E0; exact E0|auto].
    repeat (split; [reflexivity|]). intros i j Hi Hj. rewrite table_of_cell, Hcells by auto.
    destruct (Nat.eqb_spec i 0), (Nat.eqb_spec j 0); simpl; auto. subst. exact H0.
Qed.

(** Where a table of the tree stops, its count is the sum of the counts of its halting version and of its children. *)
Theorem C53_children_add_up n m allow tab k i j b t l : 2 <= n -> 2 <= m -> node n m allow true tab ->
  halts_at (table_of tab) initial k i j b t -> enum_children tab n m allow i j = Some l ->
  exists total, count tab n m allow = Some total /\ count_all n m allow (set_halt_trans tab i j :: l) = Some total.
Proof.
  intros Hn Hm Hnode Hh El.
  destruct (node_numbered n m allow true tab ltac:(lia) ltac:(lia) Hnode) as (a & c & Hnu). pose proof (nu_inv _ _ _ _ _ Hnu) as H.
  pose proof (node_1rb n m allow tab ltac:(lia) ltac:(lia) Hnode) as H00.
  destruct (all_trans_total n m tab (ti_rect _ _ _ _ _ H)) as (ts & Ets).
  destruct (numbered_used n m a c tab ts Hnu H00 Ets) as (Ha & Hc & Ea & Ec).
  destruct (stops_in n m a c allow tab k i j b t ltac:(lia) ltac:(lia) Hnode H Hh) as (Hi & Hj & Hi' & Hj' & Eu).
  eapply count_children; eauto; [apply H|eapply tinv_open; eauto].
Qed.

(** ** the files that the enumeration writes *)

Section Total.
  Variables (n m : nat) (allow : bool) (verdict : ttable -> option (nat * nat)).
  Hypothesis Hn : 2 <= n. Hypothesis Hm : 2 <= m.
  Hypothesis sound : forall tab i j, verdict tab = Some (i, j) -> exists k b t, halts_at (table_of tab) initial k i j b t.
  Definition written_tm (tab : ttable) : ttable := match verdict tab with Some (i, j) => set_halt_trans tab i j | None => tab end.
  Definition cnt (tab : ttable) : Z := match count tab n m allow with Some z => z | None => 0%Z end.

  Lemma count_all_cnt tabs : (forall tab, In tab tabs -> listed n m allow tab) -> count_all n m allow tabs = Some (zsum (map cnt tabs)).
  Proof.
    induction tabs as [|tab tabs IH]; intros H; [reflexivity|]. cbn [count_all map zsum fold_right]. fold (zsum (map cnt tabs)).
    destruct (C53_count_exact n m allow tab Hn Hm (H tab (or_introl eq_refl))) as (ms & _ & _ & E).
    rewrite IH by (intros; apply H; simpl; auto). unfold cnt at 2. now rewrite E.
  Qed.
  Lemma expand_node tab tab' : node n m allow true tab -> In tab' (expand_tm n m allow verdict tab) -> node n m allow true tab'.
  Proof.
    intros H Hin. apply (expand_child n m allow verdict sound) in Hin. destruct Hin as (k & i & j & b & t & l & Hh & El & Hin). eapply node_child; eauto.
  Qed.
  Lemma written_listed tab : node n m allow true tab -> listed n m allow (written_tm tab).
  Proof.
    intros H. unfold written_tm. destruct (verdict tab) as [(i & j)|] eqn:E; [|now constructor].
    destruct (sound _ _ _ E) as (k & b & t & Hh). eapply listed_halt; eauto.
  Qed.
  Lemma cnt_split tab : node n m allow true tab -> cnt tab = (cnt (written_tm tab) + zsum (map cnt (expand_tm n m allow verdict tab)))%Z.
  Proof.
    intros H. unfold written_tm, expand_tm. destruct (verdict tab) as [(i & j)|] eqn:E; [|simpl; lia].
    destruct (sound _ _ _ E) as (k & b & t & Hh).
    destruct (node_numbered n m allow true tab ltac:(lia) ltac:(lia) H) as (a & c & Hnu). pose proof (nu_inv _ _ _ _ _ Hnu) as Hi.
    destruct (enum_children tab n m allow i j) as [l|] eqn:El.
    2:{ unfold enum_children in El. destruct (all_trans_total n m tab (ti_rect _ _ _ _ _ Hi)) as (ts & Ets). rewrite Ets in El. discriminate. }
    destruct (C53_children_add_up n m allow tab k i j b t l Hn Hm H Hh El) as (total & E1 & E2).
    rewrite count_all_cnt in E2.
    - unfold cnt at 1. rewrite E1. injection E2 as <-. reflexivity.
    - intros x [<-|Hx]; [eapply listed_halt; eauto|]. constructor. eapply node_child; eauto.
  Qed.

  Lemma forest_nodes js nodes : forest (expand_tm n m allow verdict) js nodes ->
    (forall x, In x js -> node n m allow true x) -> forall x, In x nodes -> node n m allow true x.
  Proof.
    induction 1 as [|j js a b F1 IH1 F2 IH2]; intros H x Hx; [destruct Hx|].
    destruct Hx as [<-|Hx]; [apply H; simpl; auto|]. apply in_app_iff in Hx. destruct Hx as [Hx|Hx].
    - apply IH1; auto. intros y Hy. apply (expand_node j); auto. apply H. simpl; auto.
    - apply IH2; auto. intros y Hy. apply H. simpl; auto.
  Qed.
  Lemma forest_total js nodes : forest (expand_tm n m allow verdict) js nodes -> (forall x, In x js -> node n m allow true x) ->
    zsum (map cnt (map written_tm nodes)) = zsum (map cnt js).
  Proof.
    induction 1 as [|j js a b F1 IH1 F2 IH2]; intros H; [reflexivity|].
    cbn [map zsum fold_right]. fold (zsum (map cnt (map written_tm (a ++ b)))) (zsum (map cnt js)).
    rewrite !map_app, zsum_app, IH2 by (intros; apply H; simpl; auto).
    rewrite IH1 by (intros x Hx; apply (expand_node j); auto; apply H; simpl; auto).
    rewrite (cnt_split j) by (apply H; simpl; auto). lia.
  Qed.
End Total.

(** ** the enumeration ends *)

Lemma forest_of {J} (expand : J -> list J) js : (forall j, In j js -> exists a, forest expand (expand j) a) -> exists nodes, forest expand js nodes.
Proof.
  induction js as [|j js IH]; intros H; [exists []; constructor|].
  destruct (H j (or_introl eq_refl)) as (a & F1). destruct IH as (b & F2); [intros; apply H; simpl; auto|]. eexists. constructor; eauto.
Qed.
Lemma tree_finite n m allow verdict a c tab u ts :
  (forall tab i j, verdict tab = Some (i, j) -> exists k b t, halts_at (table_of tab) initial k i j b t) ->
  tinv n m a c tab -> all_trans tab n m = Some ts -> num_undefined ts <= u ->
  exists nodes, forest (expand_tm n m allow verdict) (expand_tm n m allow verdict tab) nodes.
Proof.
  intros Hv. revert a c tab ts. induction u as [|u IH]; intros a c tab ts H Ets Hu.
  all: apply forest_of; intros tab' Hin; pose proof (expand_child n m allow verdict Hv _ _ Hin) as Hch.
  all: destruct (child_spec _ _ _ _ _ _ _ H Hch) as (k & x & w0 & d0 & w & d & q & Ek & Es & -> & _ & _ & _ & _ & H' & _).
  all: destruct (tinv_bounds _ _ _ _ _ _ _ H Ek) as (Hi & Hj); specialize (Hj (hd x)); destruct (ti_pos _ _ _ _ _ H) as (Ha & Hc).
  all: destruct (all_trans_set n m tab (st x) (tp x (hd x)) ts (ti_rect _ _ _ _ _ H) ltac:(lia) ltac:(lia) Ets) as (ts1 & t & ts2 & -> & Et & Hset).
  all: assert (Eu : is_undefined t = true) by
    (destruct (ti_cell _ _ _ _ _ H _ _ _ Et) as [-> |(w1 & d1 & q1 & -> & _)]; [reflexivity|rewrite table_of_cell, Et in Es; discriminate]).
  all: rewrite num_undefined_app in Hu; unfold num_undefined in Hu at 2; cbn [filter] in Hu; rewrite Eu in Hu; cbn [length] in Hu.
  - lia.
  - apply (IH _ _ _ _ H' (Hset _)). rewrite num_undefined_app. unfold num_undefined at 2. cbn [filter running_trans is_undefined t_cond].
    unfold num_undefined in *. lia.
Qed.
(** Each child has one undefined cell less, so the tree is finite and the enumeration ends. *)
Theorem C44_ends n m allow first verdict root :
  0 < n -> 0 < m -> blank_tm_enum n m first = Some root ->
  (forall tab i j, verdict tab = Some (i, j) -> exists k b t, halts_at (table_of tab) initial k i j b t) ->
  exists nodes, forest (expand_tm n m allow verdict) [root] nodes.
Proof.
  intros Hn Hm Er Hv. destruct (root_tinv n m first root Er Hn Hm) as (H & _). apply forest_of. intros j [<-|[]].
  destruct (all_trans_total n m root (ti_rect _ _ _ _ _ H)) as (ts & Ets). eapply tree_finite; eauto.
Qed.

Definition class_size (n m : nat) (allow : bool) : Z :=
  let QS := (Z.of_nat n * Z.of_nat m)%Z in ((QS - 1) * (2 * QS) ^ (QS - 2) + (if allow then (2 * QS) ^ (QS - 1) else 0))%Z.

(** The counts of the tables in the file that an enumeration writes add up to the number of machines of
    the class: when it runs to the end, *)
Theorem C53_total n m allow verdict shuffle d root : 2 <= n -> 2 <= m ->
  (forall tab i j, verdict tab = Some (i, j) -> exists k b t, halts_at (table_of tab) initial k i j b t) ->
  (forall k l, Permutation (shuffle k l) l) -> blank_tm_enum n m true = Some root ->
  exists k, forall fuel, k <= fuel -> exists out,
    enum_main ttable ttable (expand_tm n m allow verdict) (written_tm verdict) (fun tab => tab) shuffle d 0 fuel 0 [root] [] []
      = Some (k, [], out) /\
    count_all n m allow out = Some (class_size n m allow).
Proof.
  intros Hn Hm Hv Hs Er. assert (Hroot : node n m allow true root) by now constructor.
  destruct (C44_ends n m allow true verdict root ltac:(lia) ltac:(lia) Er Hv) as (nodes & F).
  exists (length nodes). intros fuel Hf.
  destruct (main_all (expand_tm n m allow verdict) (written_tm verdict) (fun tab => tab) shuffle Hs d [root] nodes fuel 0 [] F Hf) as (out & E & P).
  exists out. split; [exact E|]. cbn [app] in P.
  assert (Hnodes : forall x, In x nodes -> node n m allow true x).
  { eapply forest_nodes; eauto. intros x [<-|[]]. exact Hroot. }
  rewrite count_all_cnt; auto.
  2:{ intros tab Hin. apply (Permutation_in _ P) in Hin. apply in_map_iff in Hin. destruct Hin as (x & <- & Hx). apply written_listed; auto. }
  rewrite (zsum_Permutation _ _ (Permutation_map (cnt n m allow) P)).
  rewrite (forest_total n m allow verdict Hn Hm Hv [root] nodes F) by (intros x [<-|[]]; exact Hroot).
  cbn [map zsum fold_right]. unfold cnt. destruct (C53_root n m allow root Hn Hm Er) as (-> & _). f_equal. unfold class_size. lia.
Qed.
(** and also with any limit, in which case the tables that were not run are written too. *)
Theorem C53_total_limit n m allow verdict shuffle d root N fuel : 2 <= n -> 2 <= m ->
  (forall tab i j, verdict tab = Some (i, j) -> exists k b t, halts_at (table_of tab) initial k i j b t) ->
  (forall k l, Permutation (shuffle k l) l) -> blank_tm_enum n m true = Some root -> 0 < N -> N <= fuel ->
  exists k out, enum_main ttable ttable (expand_tm n m allow verdict) (written_tm verdict) (fun tab => tab) shuffle d N fuel 0 [root] [] []
      = Some (k, [], out) /\
    count_all n m allow out = Some (class_size n m allow).
Proof.
  intros Hn Hm Hv Hs Er HN Hf. assert (Hroot : node n m allow true root) by now constructor.
  destruct (main_limit (expand_tm n m allow verdict) (written_tm verdict) (fun tab => tab) shuffle Hs d N HN [root] fuel 0 [] Hf)
    as (ran & left_ & out & E & P & Q & _ & _ & _ & D). do 2 eexists. split; [exact E|]. cbn [app] in Q |- *.
  destruct (C44_ends n m allow true verdict root ltac:(lia) ltac:(lia) Er Hv) as (nodes & F).
  destruct (D nodes F) as (rest & Frest & Prest).
  assert (Hnodes : forall x, In x nodes -> node n m allow true x).
  { eapply forest_nodes; eauto. intros x [<-|[]]. exact Hroot. }
  assert (Hran : forall x, In x ran -> node n m allow true x).
  { intros x Hx. apply Hnodes. apply (Permutation_in _ (Permutation_sym Prest)). apply in_app_iff. auto. }
  assert (Hleft : forall x, In x left_ -> node n m allow true x).
  { intros x Hx. assert (Hx' : In x (ran ++ left_)) by (apply in_app_iff; auto). apply (Permutation_in _ (Permutation_sym P)) in Hx'.
    cbn [app] in Hx'. destruct Hx' as [<-|Hx']; [exact Hroot|]. apply in_concat in Hx'. destruct Hx' as (l & Hl & Hxl).
    apply in_map_iff in Hl. destruct Hl as (y & <- & Hy). apply (expand_node n m allow verdict Hv y); auto. }
  rewrite map_id in Q.
  rewrite count_all_cnt; auto.
  2:{ intros tab Hin. apply (Permutation_in _ Q) in Hin. apply in_app_iff in Hin. destruct Hin as [Hin|Hin]; [|constructor; auto].
      apply in_map_iff in Hin. destruct Hin as (x & <- & Hx). apply written_listed; auto. }
  rewrite (zsum_Permutation _ _ (Permutation_map (cnt n m allow) Q)), map_app, zsum_app.
  pose proof (zsum_Permutation _ _ (Permutation_map (cnt n m allow) P)) as X. rewrite !map_app, !zsum_app in X. cbn [map zsum fold_right] in X.
  assert (Y : (zsum (map (cnt n m allow) ran) = zsum (map (cnt n m allow) (map (written_tm verdict) ran)) +
               zsum (map (cnt n m allow) (concat (map (expand_tm n m allow verdict) ran))))%Z).
  { clear -Hran Hn Hm Hv. induction ran as [|x ran IH]; [reflexivity|]. cbn [map concat]. rewrite map_app, zsum_app.
    cbn [zsum fold_right]. change (fold_right Z.add 0%Z) with zsum. rewrite IH by (intros; apply Hran; simpl; auto).
    rewrite (cnt_split n m allow verdict Hn Hm Hv x) by (apply Hran; simpl; auto). lia. }
  unfold cnt at 1 in X. destruct (C53_root n m allow root Hn Hm Er) as (Eroot & _). rewrite Eroot in X. f_equal. unfold class_size. lia.
Qed.

(** a table of the tree: 3 states, 2 symbols, two transitions defined; the counts are those of the formula *)
Example C53_example : exists root l, blank_tm_enum 3 2 true = Some root /\ enum_children root 3 2 false 1 0 = Some l /\
  (exists k b t, halts_at (table_of root) initial k 1 0 b t) /\ count root 3 2 false = Some 103680%Z /\
  hd_error (map (fun tab => count tab 3 2 false) l) = Some (Some 6912%Z) /\
  count (set_halt_trans root 1 0) 3 2 false = Some 20736%Z.
Proof.
  do 2 eexists. split; [vm_compute; reflexivity|]. split; [vm_compute; reflexivity|].
  split; [|vm_compute; auto].
  do 3 eexists. exists 1, (Cfg 1 1 (put (fun _ => 0) 0%Z 1)). do 2 eexists. repeat split; try reflexivity.
Qed.

(** the assertion fails for the table without any transition, where an enumeration without 1RB starts *)
Example C53_needs_1rb : exists root, blank_tm_enum 3 2 false = Some root /\ count root 3 2 false = None.
Proof. eexists. split; vm_compute; reflexivity. Qed.

Print Assumptions C44_ends.
Print Assumptions C53_count_exact.
Print Assumptions C53_root.
Print Assumptions C53_children_add_up.
Print Assumptions C53_total.
Print Assumptions C53_total_limit.
