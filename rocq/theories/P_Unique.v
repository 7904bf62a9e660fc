(** * The tree contains every machine only once *)
Require Import ZArith List Lia Bool Arith.
From Verif Require Import Spec_TM Spec_Rename M_Turing_Machine M_IO M_Enum P_Macro P_Quint P_IO P_Tree P_Complete.
Import ListNotations.
Open Scope nat_scope.

(** [a] states and [c] symbols are in use *)
Record tinv (n m a c : nat) (tab : ttable) : Prop := {
  ti_rect : rect n m tab;
  ti_pos : 0 < a <= n /\ 0 < c <= m;
  ti_cell : forall i j t, cell tab i j = Some t ->
    t = undefined_trans j i \/
    exists w d q, t = running_trans i w d q /\ i < a /\ j < c /\ w < c /\ q < a }.

Definition child n m allow (tab tab' : ttable) : Prop :=
  exists k i j b t l, halts_at (table_of tab) initial k i j b t /\ enum_children tab n m allow i j = Some l /\ In tab' l.

Inductive desc n m allow : ttable -> ttable -> Prop :=
| desc_refl tab : desc n m allow tab tab
| desc_step tab tab1 tab2 : child n m allow tab tab1 -> desc n m allow tab1 tab2 -> desc n m allow tab tab2.

Lemma desc_trans n m allow x y z : desc n m allow x y -> desc n m allow y z -> desc n m allow x z.
Proof. induction 1; auto. intros. eapply desc_step; eauto. Qed.

Lemma node_desc n m allow first tab : node n m allow first tab ->
  exists root, blank_tm_enum n m first = Some root /\ desc n m allow root tab.
Proof.
  induction 1 as [tab E|tab k i j b t l tab' _ (root & E & D) Hh El Hin].
  - exists tab. split; auto. constructor.
  - exists root. split; auto. eapply desc_trans; [exact D|]. eapply desc_step; [|constructor].
    exists k, i, j, b, t, l. auto.
Qed.

Lemma tinv_go n m a c tab i j w d q : tinv n m a c tab -> table_of tab i j = Go w d q ->
  i < a /\ j < c /\ w < c /\ q < a.
Proof.
  intros H E. rewrite table_of_cell in E. destruct (cell tab i j) as [t|] eqn:Ec; [|discriminate].
  destruct (ti_cell _ _ _ _ _ H i j t Ec) as [-> | (w' & d' & q' & -> & H1)]; [discriminate|].
  simpl in E. injection E as -> -> ->. auto.
Qed.

Lemma tinv_bounds n m a c tab k x : tinv n m a c tab -> steps (table_of tab) k initial = Some x ->
  st x < a /\ forall z, tp x z < c.
Proof.
  intros H E. apply (in_range_steps a c (table_of tab)) with (4 := E); simpl.
  - intros i j w d q _ _ Eg. apply (tinv_go _ _ _ _ _ _ _ _ _ _ H) in Eg. tauto.
  - apply H.
  - intros _. apply H.
Qed.

(** what a child is *)
Lemma child_spec n m a c allow tab tab' : tinv n m a c tab -> child n m allow tab tab' ->
  exists k x w0 d0 w d q, steps (table_of tab) k initial = Some x /\
    table_of tab (st x) (tp x (hd x)) = Stop w0 d0 false /\
    tab' = set_trans tab (st x) (tp x (hd x)) w d q /\
    w <= c /\ q <= a /\ w < m /\ q < n /\
    tinv n m (Nat.max a (S q)) (Nat.max c (S w)) tab' /\
    extends (table_of tab) (table_of tab') /\
    table_of tab' (st x) (tp x (hd x)) = Go w d q /\
    ((forall i j w d q, table_of tab i j <> Go w d q) -> d = R).
Proof.
  intros H (k & i & j & b & t & l & (k' & x & w0 & d0 & _ & Ek & -> & -> & Es & _) & El & Hin).
  destruct (tinv_bounds _ _ _ _ _ _ _ H Ek) as (Hi & Hj). specialize (Hj (hd x)).
  destruct (ti_pos _ _ _ _ _ H) as (Ha & Hc). pose proof (ti_rect _ _ _ _ _ H) as Hr.
  destruct (rect_cell n m tab (st x) (tp x (hd x)) Hr ltac:(lia) ltac:(lia)) as (t0 & Et0).
  assert (t0 = undefined_trans (tp x (hd x)) (st x)) as ->.
  { destruct (ti_cell _ _ _ _ _ H _ _ _ Et0) as [E|(w1 & d1 & q1 & -> & _)]; auto.
    rewrite table_of_cell, Et0 in Es. discriminate. }
  unfold enum_children in El. destruct (all_trans tab n m) as [ts|] eqn:Ets; [|discriminate].
  injection El as <-. destruct (allow || Nat.ltb 1 (num_undefined ts))%bool; [|destruct Hin].
  apply in_map_iff in Hin. destruct Hin as (((q & w) & d) & <- & Hc0). apply In_choices in Hc0.
  destruct Hc0 as (Hq & Hw & Hq' & Hw' & Hd).
  assert (Mq : max_state_of ts < a).
  { destruct (max_state_spec ts) as (_ & [-> | (t1 & Ht & Hu)]); [lia|].
    apply (all_trans_In n m tab ts _ Ets) in Ht. destruct Ht as (i & j & _ & _ & Ht).
    destruct (ti_cell _ _ _ _ _ H _ _ _ Ht) as [-> | (w1 & d1 & q1 & -> & _ & _ & _ & Hlt)]; unfold used_state in Hu; simpl in Hu; [discriminate|congruence]. }
  assert (Mw : max_symbol_of ts < c).
  { destruct (max_symbol_spec ts) as (_ & [-> | (t1 & Ht & Hu)]); [lia|].
    apply (all_trans_In n m tab ts _ Ets) in Ht. destruct Ht as (i & j & _ & _ & Ht).
    destruct (ti_cell _ _ _ _ _ H _ _ _ Ht) as [-> | (w1 & d1 & q1 & -> & _ & _ & Hlt & _)]; unfold used_symbol in Hu; simpl in Hu; [discriminate|congruence]. }
  assert (b = false) as ->. { rewrite table_of_cell, Et0 in Es. simpl in Es. congruence. }
  exists k', x, w0, d0, w, d, q. split; [exact Ek|]. split; [exact Es|]. split; [reflexivity|].
  split; [lia|]. split; [lia|]. split; [exact Hw|]. split; [exact Hq|]. split; [|split; [|split]].
  - constructor; [apply rect_set, Hr|lia|]. intros i j t1. unfold set_trans. rewrite cell_set.
    destruct (Nat.eqb_spec (st x) i), (Nat.eqb_spec (tp x (hd x)) j); simpl; intros E0.
    1:{ subst. rewrite Et0 in E0. injection E0 as <-. right. exists w, d, q. repeat split; lia. }
    all: destruct (ti_cell _ _ _ _ _ H _ _ _ E0) as [-> | (w1 & d1 & q1 & -> & HH)]; [auto|right; exists w1, d1, q1; split; [auto|lia]].
  - intros i j w1 d1 q1 E0. rewrite table_set_other; auto. intros [= -> ->]. congruence.
  - apply table_set_trans with (n := n) (m := m); auto; lia.
  - intros Hnone. apply Hd. destruct (a_trans_defined ts) eqn:Ea; auto. exfalso.
    apply existsb_exists in Ea. destruct Ea as (t1 & Ht & Hu). apply (all_trans_In n m tab ts _ Ets) in Ht.
    destruct Ht as (i & j & _ & _ & Ht).
    destruct (ti_cell _ _ _ _ _ H _ _ _ Ht) as [-> | (w1 & d1 & q1 & -> & _)]; [discriminate|].
    apply (Hnone i j w1 d1 q1). now rewrite table_of_cell, Ht.
Qed.

Lemma desc_extends n m allow tab tab' : desc n m allow tab tab' -> forall a c, tinv n m a c tab ->
  extends (table_of tab) (table_of tab').
Proof.
  induction 1 as [tab|tab tab1 tab2 Hch _ IH]; intros a c H; [intros i j w d q E; exact E|].
  destruct (child_spec _ _ _ _ _ _ _ H Hch) as (k & x & w0 & d0 & w & d & q & _ & _ & _ & _ & _ & _ & _ & H' & He & _).
  intros i j w1 d1 q1 E. eapply IH; eauto.
Qed.

(** a table runs on where an ancestor stops *)
Lemma desc_runs_on n m a c allow tab tab1 tab2 : tinv n m a c tab -> child n m allow tab tab1 -> desc n m allow tab1 tab2 ->
  exists k, steps (table_of tab) k initial = None /\ steps (table_of tab2) k initial <> None.
Proof.
  intros H Hch D. destruct (child_spec _ _ _ _ _ _ _ H Hch) as (k & x & w0 & d0 & w & d & q & Ek & Es & _ & _ & _ & _ & _ & H' & He & Eg & _).
  exists (S k). rewrite !steps_S, Ek. split; [unfold step; now rewrite Es|].
  pose proof (desc_extends _ _ _ _ _ D _ _ H') as He2.
  rewrite (extends_steps _ _ He2 _ _ _ (extends_steps _ _ He _ _ _ Ek)). unfold step. rewrite (He2 _ _ _ _ _ Eg). discriminate.
Qed.

Section Unique.
  Variables (n m : nat) (M : table) (allow : bool).
  Variables (f1 f2 g1 g2 : nat -> nat) (b1 b2 : bool).
  Hypothesis Hf1 : injective_below n f1. Hypothesis Hf2 : injective_below n f2.
  Hypothesis Hg1 : injective_below m g1. Hypothesis Hg2 : injective_below m g2.

  Lemma same_name k (f f' : nat -> nat) (Hf : injective_below k f) (Hf' : injective_below k f') a x y :
    (forall i, i < a -> f i = f' i) -> x <= a -> y <= a -> x < k -> y < k -> f x = f' y ->
    x = y /\ forall i, i < Nat.max a (S x) -> f i = f' i.
  Proof.
    intros Ha Hx Hy Hk Hk' E.
    assert (x = y) as <-.
    { destruct (Nat.eq_dec x a) as [-> |Hxa].
      - destruct (Nat.eq_dec y a) as [-> |Hya]; auto. apply Hf; auto. rewrite E. symmetry. apply Ha. lia.
      - apply Hf'; auto. rewrite <- E. symmetry. apply Ha. lia. }
    split; auto. intros i Hi. destruct (Nat.eq_dec i x) as [-> |]; auto. apply Ha. lia.
  Qed.

  Lemma comparable tab tab1 : desc n m allow tab tab1 -> forall a c tab2, tinv n m a c tab ->
    desc n m allow tab tab2 ->
    sub_renamed f1 g1 b1 (table_of tab1) M -> sub_renamed f2 g2 b2 (table_of tab2) M ->
    (forall i, i < a -> f1 i = f2 i) -> (forall j, j < c -> g1 j = g2 j) ->
    (forall i j w d q, table_of tab i j = Go w d q -> b1 = b2) ->
    tab1 = tab2 \/
    (exists k, steps (table_of tab1) k initial = None /\ steps (table_of tab2) k initial <> None) \/
    (exists k, steps (table_of tab2) k initial = None /\ steps (table_of tab1) k initial <> None).
  Proof.
    induction 1 as [tab|tab tab1' tab1 Hch D1 IH]; intros a c tab2 H D2 S1 S2 Hfa Hgc Hb.
    - inversion D2; subst; auto. right; left. eapply desc_runs_on; eauto.
    - inversion D2 as [|? tab2' ? Hch2 D2']; subst; auto.
      { right; right. eapply desc_runs_on; eauto. }
      destruct (child_spec _ _ _ _ _ _ _ H Hch) as (k & x & w0 & d0 & w & d & q & Ek & Es & -> & Hw & Hq & Hw' & Hq' & H1 & He & Eg & Hd).
      destruct (child_spec _ _ _ _ _ _ _ H Hch2) as (k2 & x2 & w20 & d20 & w2 & d2 & q2 & Ek2 & Es2 & -> & Hw2 & Hq2 & Hw2' & Hq2' & H2 & He2 & Eg2 & Hd2).
      assert (k2 = k /\ x2 = x) as (-> & ->).
      { assert (A : forall k k' x x' w d, steps (table_of tab) k initial = Some x -> steps (table_of tab) k' initial = Some x' ->
          table_of tab (st x) (tp x (hd x)) = Stop w d false -> k' <= k).
        { intros y y' z z' w1 d1 Ey Ey' Ez. destruct (le_lt_dec y' y); auto. exfalso.
          destruct (steps_le (table_of tab) y' (S y) initial z' ltac:(lia) Ey') as (u & Eu).
          rewrite steps_S, Ey in Eu. unfold step in Eu. rewrite Ez in Eu. discriminate. }
        assert (k2 = k) as -> by (apply Nat.le_antisymm; eauto). split; congruence. }
      destruct (tinv_bounds _ _ _ _ _ _ _ H Ek) as (Hi & Hj). specialize (Hj (hd x)).
      pose proof (desc_extends _ _ _ _ _ D1 _ _ H1 _ _ _ _ _ Eg) as G1. apply S1 in G1.
      pose proof (desc_extends _ _ _ _ _ D2' _ _ H2 _ _ _ _ _ Eg2) as G2. apply S2 in G2.
      rewrite (Hfa _ Hi), (Hgc _ Hj) in G1. rewrite G1 in G2. injection G2 as Ew Ed Eq.
      destruct (same_name m g1 g2 Hg1 Hg2 c w w2 Hgc Hw Hw2 Hw' Hw2' Ew) as (<- & Hgc').
      destruct (same_name n f1 f2 Hf1 Hf2 a q q2 Hfa Hq Hq2 Hq' Hq2' Eq) as (<- & Hfa').
      assert (Hdb : d = d2 /\ b1 = b2).
      { assert (Hcase : (exists i j w d q, table_of tab i j = Go w d q) \/ (forall i j w d q, table_of tab i j <> Go w d q)).
        { destruct (existsb (fun a => match table_of tab (fst a) (snd a) with Go _ _ _ => true | _ => false end) (grid a c)) eqn:Ee.
          - left. apply existsb_exists in Ee. destruct Ee as ((i & j) & _ & Ee). simpl in Ee.
            destruct (table_of tab i j) eqn:Et; [eauto 10|discriminate].
          - right. intros i j w3 d3 q3 Et. pose proof (tinv_go _ _ _ _ _ _ _ _ _ _ H Et) as Hij.
            assert (existsb (fun a => match table_of tab (fst a) (snd a) with Go _ _ _ => true | _ => false end) (grid a c) = true); [|congruence].
            apply existsb_exists. exists (i, j). split; [apply In_grid2; simpl; tauto|]. simpl. now rewrite Et. }
        destruct Hcase as [(i & j & w3 & d3 & q3 & Et)|Hnone].
        - rewrite (Hb _ _ _ _ _ Et) in Ed |- *. split; auto. destruct b2, d, d2; simpl in Ed; congruence.
        - rewrite (Hd Hnone), (Hd2 Hnone) in *. split; auto. destruct b1, b2; simpl in Ed; congruence. }
      destruct Hdb as (<- & Hbb). apply IH with (1 := H1); auto.
  Qed.
End Unique.

Lemma root_tinv n m first root : blank_tm_enum n m first = Some root -> 0 < n -> 0 < m ->
  tinv n m (if first then 2 else 1) (if first then 2 else 1) root /\
  table_of root 0 0 = if first then Go 1 R 1 else Stop 1 R false.
Proof.
  intros E Hn Hm. unfold blank_tm_enum in E. destruct (quintuples_rect _ _ _ _ E) as (Hr & Hrow).
  split.
  2:{ pose proof (quintuples_table _ _ _ _ 0 0 E Hn Hm) as Ht. now destruct first. }
  constructor; auto.
  - destruct first; [|lia]. inversion Hrow as [|? ? Hx]; subst. unfold row_in_range in Hx. simpl in Hx. lia.
  - intros i j t Et. destruct (cell_bounds _ _ _ _ _ _ Hr Et) as (Hi & Hj).
    pose proof (quintuples_cells _ _ _ _ i j E Hi Hj) as Hc. unfold ttable, trans_row in *. rewrite Et in Hc.
    injection Hc as ->. destruct first; auto.
    unfold last_row, row_for, find, rev, app. cbn [q_state_in q_symbol_in q_symbol_out]. rewrite andb_true_r.
    destruct (Nat.eqb_spec 0 i), (Nat.eqb_spec 0 j); cbn [andb]; auto. subst i j. right.
    exists 1, R, 1. split; [reflexivity|]. lia.
Qed.

Theorem nodes_unique n m allow first M tab1 tab2 f1 g1 b1 f2 g2 b2 :
  0 < n -> 0 < m -> node n m allow first tab1 -> node n m allow first tab2 ->
  injective_below n f1 -> injective_below n f2 -> injective_below m g1 -> injective_below m g2 ->
  f1 0 = 0 -> f2 0 = 0 -> g1 0 = 0 -> g2 0 = 0 ->
  sub_renamed f1 g1 b1 (table_of tab1) M -> sub_renamed f2 g2 b2 (table_of tab2) M ->
  (forall k, steps (table_of tab1) k initial = None <-> steps (table_of tab2) k initial = None) ->
  tab1 = tab2.
Proof.
  intros Hn Hm N1 N2 F1 F2 G1 G2 Zf1 Zf2 Zg1 Zg2 S1 S2 Hs.
  destruct (node_desc _ _ _ _ _ N1) as (root & E & D1). destruct (node_desc _ _ _ _ _ N2) as (root2 & E2 & D2).
  assert (root2 = root) as -> by congruence. destruct (root_tinv _ _ _ _ E Hn Hm) as (H & H00).
  assert (Hag : first = true -> f1 1 = f2 1 /\ g1 1 = g2 1 /\ b1 = b2).
  { intros ->. pose proof (desc_extends _ _ _ _ _ D1 _ _ H _ _ _ _ _ H00) as X1. apply S1 in X1.
    pose proof (desc_extends _ _ _ _ _ D2 _ _ H _ _ _ _ _ H00) as X2. apply S2 in X2.
    rewrite Zf1, Zg1 in X1. rewrite Zf2, Zg2 in X2. rewrite X1 in X2. injection X2 as Ew Ed Eq.
    repeat split; auto. destruct b1, b2; simpl in Ed; congruence. }
  destruct (comparable n m M allow f1 f2 g1 g2 b1 b2 F1 F2 G1 G2 root tab1 D1 _ _ tab2 H D2 S1 S2) as [X|[(k & Ek & Ek')|(k & Ek & Ek')]]; auto.
  - intros i Hi. destruct first; [|now replace i with 0 by lia; congruence].
    destruct (Hag eq_refl) as (A & _). assert (i = 0 \/ i = 1) as [-> | ->] by lia; congruence.
  - intros i Hi. destruct first; [|now replace i with 0 by lia; congruence].
    destruct (Hag eq_refl) as (_ & A & _). assert (i = 0 \/ i = 1) as [-> | ->] by lia; congruence.
  - intros i j w d q Eg. destruct first; [now destruct (Hag eq_refl) as (_ & _ & A)|].
    exfalso. pose proof (tinv_go _ _ _ _ _ _ _ _ _ _ H Eg) as (Hi & Hj & _).
    replace i with 0 in Eg by lia. replace j with 0 in Eg by lia. congruence.
  - exfalso. apply Ek'. now apply Hs.
  - exfalso. apply Ek'. now apply Hs.
Qed.
