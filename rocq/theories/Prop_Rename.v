(** * Properties C46 to C49: renaming, normal forms and adjacent machines *)
Require Import ZArith List Lia Bool Arith Permutation Ascii String.
From Verif Require Import Spec_TM Spec_Rename M_Turing_Machine M_Direct M_IO M_Enum P_Macro P_Quint P_IO P_Tree P_Complete P_Unique
  P_Complete2 P_Permute P_TNF P_TNF2 P_LNF P_LNF2.
Import ListNotations.
Open Scope nat_scope.

Lemma parse_std line tab n m : parse_tm line = Some (tab, n, m) -> std_table n m tab.
Proof.
  unfold parse_tm. destruct (existsb _ line); [discriminate|]. destruct (otraverse _) as [rows|]; [|discriminate].
  destruct (row_quints _ rows) as [qs|]; [|discriminate].
  destruct (tm_from_quintuples qs _ _) as [u|] eqn:E; [|discriminate]. intros [= <- <- <-]. eapply quintuples_std; eauto.
Qed.
(** a machine given by its text, for the examples *)
Definition tm (s : string) : ttable := match parse_tm (list_ascii_of_string s) with Some (t, _, _) => t | None => [] end.

(** ** C46 *)

(** the runs of [T'] from [c'] and of [T] from [c] have the same length and correspond step by step *)
Definition runs_alike (f g : nat -> nat) (b : bool) (T' T : table) (c' c : config) : Prop :=
  forall k, (forall x, steps T' k c' = Some x -> exists y, steps T k c = Some y /\ renames f g b x y) /\
            (forall y, steps T k c = Some y -> exists x, steps T' k c' = Some x /\ renames f g b x y).

Lemma permuted_alike n m so syo b tab tab' c' c : basic_table n m tab -> Permutation so (seq 0 n) -> Permutation syo (seq 0 m) ->
  permuted n m so syo b tab tab' -> renames (fun i => nth i so 0) (fun j => nth j syo 0) b c' c ->
  st c' < n -> (forall z, tp c' z < m) ->
  runs_alike (fun i => nth i so 0) (fun j => nth j syo 0) b (table_of tab') (table_of tab) c' c.
Proof.
  intros B Ps Py Hp Hr Hs Ht k. pose proof (permuted_run n m so syo b tab tab' B Ps Py Hp k c' c Hr Hs Ht) as H.
  destruct (steps (table_of tab') k c') as [x|], (steps (table_of tab) k c) as [y|]; try contradiction.
  - destruct H as (H & _). split; intros z [= <-]; eauto.
  - split; intros; discriminate.
Qed.

(** Permuting states and symbols, start state and blank staying in place, and possibly mirroring:
    permute_table succeeds and the new machine's run corresponds to the old one's step by step; it
    halts after the same number of steps, in the corresponding cell and in the same way (or neither
    halts).  (For all machines that the readers build, C36_every_machine_is_std.) *)
Theorem C46_renamed_run n m tab so syo b :
  0 < n -> 0 < m -> std_table n m tab -> Permutation so (seq 0 n) -> Permutation syo (seq 0 m) ->
  nth 0 so 0 = 0 -> nth 0 syo 0 = 0 ->
  exists tab', permute_table tab so syo b = Some tab' /\
    runs_alike (fun i => nth i so 0) (fun j => nth j syo 0) b (table_of tab') (table_of tab) initial initial /\
    (forall k q s e, (exists t, halts_at (table_of tab') initial k q s e t) <->
       q < n /\ s < m /\ exists t, halts_at (table_of tab) initial k (nth q so 0) (nth s syo 0) e t) /\
    (nonhalting (table_of tab') initial <-> nonhalting (table_of tab) initial).
Proof.
  intros Hn Hm Hs Ps Py Z1 Z2. pose proof (std_basic _ _ _ Hs) as B.
  destruct (permute_table_ok n m tab so syo b B Ps Py) as (tab' & E & Hp). exists tab'. split; [exact E|].
  assert (R0 : renames (fun i => nth i so 0) (fun j => nth j syo 0) b initial initial) by (apply renames_initial; auto).
  assert (Hal : runs_alike (fun i => nth i so 0) (fun j => nth j syo 0) b (table_of tab') (table_of tab) initial initial)
    by (apply (permuted_alike n m); auto).
  split; [exact Hal|]. pose proof (permuted_basic _ _ _ _ _ _ _ B Ps Py Hp) as B'. split.
  - intros k q s e. split.
    + intros (t & k0 & c & w & d & -> & Ec & -> & -> & Est & _).
      destruct (in_range_steps n m _ (basic_in_range _ _ _ B') k0 initial c Hn ltac:(intros z; exact Hm) Ec) as (H1 & H2).
      split; auto. split; auto. destruct (proj1 (Hal k0) c Ec) as (c' & Ec' & Rc).
      pose proof (permuted_cells _ _ _ _ _ _ _ (st c) (tp c (hd c)) B Ps Py Hp H1 (H2 _)) as Hc. rewrite Est in Hc.
      destruct (table_of tab (nth (st c) so 0) (nth (tp c (hd c)) syo 0)) as [|w' d' e'] eqn:E'; [contradiction|].
      destruct Hc as (-> & _ & _). exists (put (tp c') (hd c') w'), k0, c', w', d'. split; auto. split; auto.
      rewrite (renames_read _ _ _ _ _ Rc). destruct Rc as (-> & _). auto.
    + intros (Hq & Hsm & t & k0 & c' & w & d & -> & Ec' & Eq & Es & Est & _).
      destruct (proj2 (Hal k0) c' Ec') as (c & Ec & Rc).
      destruct (in_range_steps n m _ (basic_in_range _ _ _ B') k0 initial c Hn ltac:(intros z; exact Hm) Ec) as (H1 & H2).
      pose proof (renames_read _ _ _ _ _ Rc) as Rr. pose proof Rc as (Rs & _).
      assert (q = st c) as ->. { apply (order_permutes n so Ps); auto. congruence. }
      assert (s = tp c (hd c)) as ->. { apply (order_permutes m syo Py); auto. simpl in Rr. congruence. }
      pose proof (permuted_cells _ _ _ _ _ _ _ (st c) (tp c (hd c)) B Ps Py Hp H1 (H2 _)) as Hc. rewrite Est in Hc.
      destruct (table_of tab' (st c) (tp c (hd c))) as [|w' d' e'] eqn:E'; [contradiction|].
      destruct Hc as (-> & _ & _). exists (put (tp c) (hd c) w'), k0, c, w', d'. auto 10.
  - split; intros H k Ek.
    + apply (H k). destruct (steps (table_of tab') k initial) as [x|] eqn:E'; auto.
      destruct (proj1 (Hal k) x E') as (y & Ey & _). congruence.
    + apply (H k). destruct (steps (table_of tab) k initial) as [y|] eqn:E'; auto.
      destruct (proj2 (Hal k) y E') as (x & Ex & _). congruence.
Qed.
Example C46_example : exists k c, std_table 3 3 (tm "1LC2RA---_2RB1LA1RZ_0RB2RC1LB") /\ Permutation [0; 2; 1] (seq 0 3) /\
  steps (table_of (tm "1LC2RA---_2RB1LA1RZ_0RB2RC1LB")) k initial = Some c /\ k = 6 /\ st c = 0.
Proof.
  exists 6. eexists. split; [eapply (parse_std (list_ascii_of_string "1LC2RA---_2RB1LA1RZ_0RB2RC1LB")); vm_compute; reflexivity|].
  split; [simpl; do 1 constructor; apply perm_swap|]. split; [vm_compute; reflexivity|]. split; reflexivity.
Qed.

(** But the stopping transition becomes 1RZ, so the final tape and its score may change. *)
Theorem C46_score_refuted : exists tab tab' t t',
  std_table 1 2 tab /\ permute_table tab [0] [0; 1] false = Some tab' /\
  halts_at (table_of tab) initial 1 0 0 true t /\ score t 0 /\
  halts_at (table_of tab') initial 1 0 0 true t' /\ score t' 1.
Proof.
  exists (tm "0LZ1RA"). eexists. exists (put (fun _ => 0) 0%Z 0), (put (fun _ => 0) 0%Z 1).
  split; [eapply (parse_std (list_ascii_of_string "0LZ1RA")); vm_compute; reflexivity|].
  split; [vm_compute; reflexivity|]. split; [|split; [|split]].
  - exists 0, initial, 0, L. repeat split.
  - exists []. split; [constructor|]. split; [|reflexivity]. intros z. unfold put. destruct (z =? 0)%Z; simpl; intuition.
  - exists 0, initial, 1, R. repeat split.
  - exists [0%Z]. split; [repeat constructor; simpl; tauto|]. split; [|reflexivity]. intros z. unfold put. simpl.
    destruct (Z.eqb_spec z 0); split; intros; try lia; auto.
Qed.

(** Permute.permute_start_state: one table for each state; the table for state [k] runs from its
    start as the given one runs from state [k] on the blank tape. *)
Lemma renames_compose f1 g1 b1 f2 g2 b2 x y z : renames f2 g2 b2 x y -> renames f1 g1 b1 y z ->
  renames (fun i => f1 (f2 i)) (fun j => g1 (g2 j)) (xorb b1 b2) x z.
Proof.
  intros (H1 & H2 & H3) (K1 & K2 & K3). split; [congruence|].
  assert (X : forall p, mirror_pos (xorb b1 b2) p = mirror_pos b1 (mirror_pos b2 p)) by (intros p; destruct b1, b2; simpl; lia).
  split; [rewrite X; congruence|]. intros p. rewrite X, K3, H3. reflexivity.
Qed.

Lemma alike_compose f1 g1 b1 f2 g2 b2 T2 T1 T0 c2 c1 c0 :
  runs_alike f2 g2 b2 T2 T1 c2 c1 -> runs_alike f1 g1 b1 T1 T0 c1 c0 ->
  runs_alike (fun i => f1 (f2 i)) (fun j => g1 (g2 j)) (xorb b1 b2) T2 T0 c2 c0.
Proof.
  intros H K k. split.
  - intros x Ex. destruct (proj1 (H k) x Ex) as (y & Ey & R1). destruct (proj1 (K k) y Ey) as (z & Ez & R2).
    exists z. split; auto. eapply renames_compose; eauto.
  - intros z Ez. destruct (proj2 (K k) z Ez) as (y & Ey & R2). destruct (proj2 (H k) y Ey) as (x & Ex & R1).
    exists x. split; auto. eapply renames_compose; eauto.
Qed.

Lemma lset_length {A} (l : list A) i v : List.length (lset l i v) = List.length l.
Proof. revert i. induction l as [|a l IH]; intros [|i]; simpl; auto. Qed.

Lemma swapped_nth n k i : k < n -> i < n ->
  nth i (swapped_order n k) 0 = if Nat.eqb i 0 then k else if Nat.eqb i k then 0 else i.
Proof.
  intros Hk Hi. unfold swapped_order. apply nth_error_nth. rewrite !nth_error_lset.
  assert (E : nth_error (seq 0 n) i = Some i).
  { rewrite (nth_error_nth' _ 0) by (rewrite seq_length; lia). now rewrite seq_nth. }
  destruct (Nat.eqb_spec 0 i) as [<-|H0].
  - destruct (Nat.eqb_spec 0 0); [|lia]. rewrite E. destruct (Nat.eqb k 0); reflexivity.
  - destruct (Nat.eqb_spec i 0); [lia|]. rewrite E. rewrite (Nat.eqb_sym k i). destruct (Nat.eqb i k); reflexivity.
Qed.

Lemma swapped_perm n k : k < n -> Permutation (swapped_order n k) (seq 0 n).
Proof.
  intros Hk. assert (Hl : List.length (swapped_order n k) = n) by (unfold swapped_order; now rewrite !lset_length, seq_length).
  apply NoDup_Permutation_bis.
  - apply (NoDup_nth _ 0). rewrite Hl. intros i j Hi Hj. rewrite !swapped_nth by auto.
    destruct (Nat.eqb_spec i 0), (Nat.eqb_spec j 0), (Nat.eqb_spec i k), (Nat.eqb_spec j k); lia.
  - rewrite Hl, seq_length. lia.
  - intros x Hx. apply (In_nth _ _ 0) in Hx. rewrite Hl in Hx. destruct Hx as (i & Hi & <-). apply in_seq. rewrite swapped_nth by auto.
    destruct (Nat.eqb_spec i 0), (Nat.eqb_spec i k); lia.
Qed.

Theorem C46_start_states n m tab mx : 0 < n -> 0 < m -> std_table n m tab ->
  exists l, permute_start_state tab n m mx = Some l /\ List.length l = n /\
  forall k tab', nth_error l k = Some tab' ->
    exists f g b, permutes n f /\ permutes m g /\ f 0 = k /\ g 0 = 0 /\
      runs_alike f g b (table_of tab') (table_of tab) initial (Cfg k 0 (fun _ => 0)).
Proof.
  intros Hn Hm Hs. pose proof (std_basic _ _ _ Hs) as B.
  set (F := fun k => match start_state_table tab n m k with Some t => try_tnf t n m mx | None => None end).
  assert (HF : forall k, k < n -> exists tab', F k = Some tab' /\
    exists f g b, permutes n f /\ permutes m g /\ f 0 = k /\ g 0 = 0 /\
      runs_alike f g b (table_of tab') (table_of tab) initial (Cfg k 0 (fun _ => 0))).
  { intros k Hk. unfold F, start_state_table.
    pose proof (swapped_perm n k Hk) as P1. pose proof (Permutation_refl (seq 0 m)) as P2.
    destruct (permute_table_ok n m tab _ _ false B P1 P2) as (tab1 & -> & Hp).
    pose proof (permuted_basic _ _ _ _ _ _ _ B P1 P2 Hp) as B1.
    assert (A1 : runs_alike (fun i => nth i (swapped_order n k) 0) (fun j => nth j (seq 0 m) 0) false (table_of tab1) (table_of tab) initial (Cfg k 0 (fun _ => 0))).
    { apply (permuted_alike n m); auto. split; [simpl; rewrite swapped_nth by lia; reflexivity|]. split; [reflexivity|].
      intros z. simpl. now rewrite seq_nth by lia. }
    assert (F0 : nth 0 (swapped_order n k) 0 = k) by (rewrite swapped_nth by lia; reflexivity).
    assert (G0 : nth 0 (seq 0 m) 0 = 0) by (now rewrite seq_nth).
    destruct (order_permutes n _ P1) as (Fi & Fb), (order_permutes m _ P2) as (Gi & Gb).
    unfold try_tnf. destruct (to_TNF_ok n m tab1 mx Hn Hm B1) as (r & -> & Hr). destruct r as [tab2|].
    - destruct Hr as (so & syo & b & Q1 & Q2 & Z1 & Z2 & Hp2 & _).
      assert (A2 : runs_alike (fun i => nth i so 0) (fun j => nth j syo 0) b (table_of tab2) (table_of tab1) initial initial).
      { apply (permuted_alike n m); auto. apply renames_initial; auto. }
      exists tab2. split; auto. eexists _, _, _. split; [|split; [|split; [|split; [|exact (alike_compose _ _ _ _ _ _ _ _ _ _ _ _ A2 A1)]]]].
      + destruct (order_permutes n _ Q1) as (Ki & Kb). split; [|intros i Hi; apply Fb, Kb, Hi].
        intros x y Hx Hy Exy. apply Ki; [assumption..|]. apply Fi; [now apply Kb..|exact Exy].
      + destruct (order_permutes m _ Q2) as (Ki & Kb). split; [|intros i Hi; apply Gb, Kb, Hi].
        intros x y Hx Hy Exy. apply Ki; [assumption..|]. apply Gi; [now apply Kb..|exact Exy].
      + simpl. now rewrite Z1.
      + simpl. now rewrite Z2.
    - exists tab1. split; auto. exists (fun i => nth i (swapped_order n k) 0), (fun j => nth j (seq 0 m) 0), false.
      split; [now split|]. split; [now split|]. auto. }
  destruct (otraverse_all (map F (seq 0 n))) as (l & El).
  { intros x Hx. apply in_map_iff in Hx. destruct Hx as (k & <- & Hk). apply in_seq in Hk. destruct (HF k) as (t & -> & _); [lia|discriminate]. }
  exists l. split; [exact El|]. assert (Hl : List.length l = n) by (rewrite (otraverse_length _ _ El), map_length; apply seq_length).
  split; auto. intros k tab' Ek. assert (Hk : k < n) by (rewrite <- Hl; apply nth_error_Some; congruence).
  pose proof (otraverse_nth _ _ k El) as X. rewrite Ek, nth_error_map in X. rewrite (nth_error_nth' _ 0) in X by (rewrite seq_length; lia).
  rewrite seq_nth in X by lia. simpl in X. destruct (HF k Hk) as (t & Et & Ht). rewrite Et in X. injection X as <-. exact Ht.
Qed.
Example C46_start_example : exists l, permute_start_state (tm "1RB1LB_1LA1RZ") 2 2 10 = Some l /\ List.length l = 2.
Proof. eexists. split; [vm_compute; reflexivity|]. reflexivity. Qed.

(** ** C47 *)

(** to_TNF never raises.  If it gives a machine, this is the given one under other names; its states
    are numbered by first visit, its symbols by first reading, and its first move is to the right.
    If it gives none, some state or symbol was not met in the allowed number of steps. *)
Theorem C47_first_visit_order n m tab mx : 0 < n -> 0 < m -> std_table n m tab ->
  exists r, to_TNF tab n m mx = Some r /\
  match r with
  | Some tab' => exists f g b, permutes n f /\ permutes m g /\ f 0 = 0 /\ g 0 = 0 /\
      runs_alike f g b (table_of tab') (table_of tab) initial initial /\
      in_first_order (table_of tab') st /\ in_first_order (table_of tab') (fun c => tp c (hd c)) /\
      (forall w d q, table_of tab' 0 0 = Go w d q -> d = R)
  | None => (exists x, x < n /\ forall t, t <= S mx -> ~ visits (table_of tab) st t x) \/
            (exists x, x < m /\ forall t, t <= S mx -> ~ visits (table_of tab) (fun c => tp c (hd c)) t x)
  end.
Proof.
  intros Hn Hm Hs. pose proof (std_basic _ _ _ Hs) as B. destruct (to_TNF_ok n m tab mx Hn Hm B) as (r & E & Hr).
  exists r. split; auto. destruct r as [tab'|]; auto. destruct Hr as (so & syo & b & Q1 & Q2 & Z1 & Z2 & Hp & O1 & O2 & Hd).
  exists (fun i => nth i so 0), (fun j => nth j syo 0), b. split; [now apply order_permutes|]. split; [now apply order_permutes|].
  split; auto. split; auto. split; auto. apply (permuted_alike n m); auto. apply renames_initial; auto.
Qed.

(** With two symbols it is then one of the tables of the enumeration: for every number of steps that
    it makes there is a table of the tree with the same names, all of whose transitions are its own
    and that makes these steps.  More symbols: the same if symbols are numbered by first writing; what
    is missing is that the conversion makes them so, and it does not (below). *)
Theorem C47_in_tree_partial n m allow tab mx tab' k c :
  0 < n -> 0 < m -> std_table n m tab -> to_TNF tab n m mx = Some (Some tab') ->
  m <= 2 \/ writes_in_order (table_of tab') ->
  allow = true \/ (exists i j w d e, i < n /\ j < m /\ table_of tab' i j = Stop w d e) ->
  steps (table_of tab') k initial = Some c ->
  exists tab0, node n m allow false tab0 /\ extends (table_of tab0) (table_of tab') /\
    steps (table_of tab0) k initial = Some c.
Proof.
  intros Hn Hm Hs E Hw Ha Ek. pose proof (std_basic _ _ _ Hs) as B. destruct (to_TNF_ok n m tab mx Hn Hm B) as (r & E' & Hr).
  rewrite E in E'. injection E' as <-. destruct Hr as (so & syo & b & Q1 & Q2 & Z1 & Z2 & Hp & O1 & O2 & Hd).
  pose proof (basic_in_range _ _ _ (permuted_basic _ _ _ _ _ _ _ B Q1 Q2 Hp)) as Hrange.
  apply in_tree; auto. destruct Hw as [Hm2|]; auto. intros t w (x & d & q & Ex & Eg) v Hv.
  destruct (in_range_steps n m _ Hrange t initial x Hn ltac:(intros z; exact Hm) Ex) as (H1 & H2).
  destruct (Hrange _ _ _ _ _ H1 (H2 _) Eg). lia.
Qed.
Example C47_example : exists tab' c, std_table 3 2 (tm "1LC1RA_1RZ1LA_0RB1LC") /\
  to_TNF (tm "1LC1RA_1RZ1LA_0RB1LC") 3 2 100 = Some (Some tab') /\
  ttable_str tab' 3 2 = Some (list_ascii_of_string "1RB1LA_0LC1RB_1RZ1RA") /\
  steps (table_of tab') 2 initial = Some c.
Proof.
  do 2 eexists. split; [eapply (parse_std (list_ascii_of_string "1LC1RA_1RZ1LA_0RB1LC")); vm_compute; reflexivity|].
  split; [vm_compute; reflexivity|]. split; vm_compute; reflexivity.
Qed.

(** With three symbols the conversion can give a machine whose very first transition is in no table
    of the enumeration, because it numbers symbols when they are read, the enumeration when they
    are written. *)
Theorem C47_three_symbols_refuted : exists tab tab', std_table 3 3 tab /\ to_TNF tab 3 3 1000 = Some (Some tab') /\
  forall allow first tab0, node 3 3 allow first tab0 -> extends (table_of tab0) (table_of tab') -> steps (table_of tab0) 1 initial = None.
Proof.
  exists (tm "2RB---1LB_1RC---1RA_0LA0LB0LC"). eexists.
  split; [eapply (parse_std (list_ascii_of_string "2RB---1LB_1RC---1RA_0LA0LB0LC")); vm_compute; reflexivity|].
  split; [vm_compute; reflexivity|]. intros allow first tab0 Hnode He.
  destruct (node_numbered _ _ _ _ _ (Nat.lt_0_succ 2) (Nat.lt_0_succ 2) Hnode) as (a & c & Hnu).
  destruct (table_of tab0 0 0) as [w d q|w d e] eqn:E0; [|simpl; unfold step; simpl; now rewrite E0].
  exfalso. pose proof (He _ _ _ _ _ E0) as E1. vm_compute in E1. injection E1 as <- <- <-.
  assert (W : writes (table_of tab0) 0 2) by (exists initial, R, 1; auto).
  destruct (nu_syo _ _ _ _ _ Hnu 0 2 W 1 ltac:(lia)) as (t & Ht & _). lia.
Qed.

(** ** C48 *)

(** What brute_lnf gives is the given machine under other names, started in the right state on the
    right blank. *)
Theorem C48_same_machine n m tab : 0 < n -> 0 < m -> std_table n m tab ->
  exists p f g b, brute_lnf tab n m = Some p /\ permutes n f /\ permutes m g /\ lt_state p < n /\ lt_symbol p < m /\
    f (lt_state p) = 0 /\ g (lt_symbol p) = 0 /\
    runs_alike f g b (table_of (lt_tab p)) (table_of tab) (Cfg (lt_state p) 0 (fun _ => lt_symbol p)) initial.
Proof.
  intros Hn Hm Hs. pose proof (std_basic _ _ _ Hs) as B.
  destruct (brute_lnf_ok n m tab Hn Hm Hs) as (p & s & s0 & E & _ & _ & [-> |(so & syo & P1 & P2 & Ep)] & _).
  - exists (LnfTM tab 0 0), (fun i => i), (fun j => j), false. simpl.
    split; [exact E|]. split; [split; [intros ? ? ? ?; auto|auto]|]. split; [split; [intros ? ? ? ?; auto|auto]|].
    repeat (split; [solve [auto]|]). intros k. split; intros x Ex; exists x; split; auto; (split; [reflexivity|split; reflexivity]).
  - destruct (lnf_permute_ok n m tab so syo Hn Hm B P1 P2) as (p' & b & t & Ep' & _ & _ & _ & Hp & H1 & H2 & H3 & H4).
    rewrite Ep in Ep'. injection Ep' as <-. exists p, (fun i => nth i so 0), (fun j => nth j syo 0), b.
    split; [exact E|]. split; [now apply order_permutes|]. split; [now apply order_permutes|].
    repeat (split; [solve [auto]|]). apply (permuted_alike n m); auto. simpl. split; [auto|]. split; [now destruct b|]. intros z. simpl. auto.
Qed.

(** The normal form is independent of the names if every state has a running transition on the blank
    and the blank is not renamed; halting cells are 1RZ.  Missing: all other machines, for which it
    does depend on them (below). *)
Theorem C48_canonical_partial n m tab tab' so syo b :
  0 < n -> 0 < m -> n < 25 -> m < 10 -> std_table n m tab -> std_table n m tab' ->
  Permutation so (seq 0 n) -> Permutation syo (seq 0 m) -> nth 0 syo 0 = 0 ->
  same_up_to_names n m so syo b (table_of tab) (table_of tab') ->
  (forall i, i < n -> exists w d q, table_of tab i 0 = Go w d q) ->
  halts_1RZ tab -> halts_1RZ tab' ->
  exists p p' s, brute_lnf tab n m = Some p /\ brute_lnf tab' n m = Some p' /\
    ttable_str (lt_tab p) n m = Some s /\ ttable_str (lt_tab p') n m = Some s.
Proof. exact (canonical n m tab tab' so syo b). Qed.

Ltac small_cells := intros i j; 
  destruct i as [|[|[|i]]]; destruct j as [|[|[|j]]]; simpl; try (intros; lia).
Example C48_example : exists p,
  same_up_to_names 2 2 [1; 0] [0; 1] true (table_of (tm "1RB1RZ_0LA1LB")) (table_of (tm "0RB1RA_1LA1RZ")) /\
  (forall i, i < 2 -> exists w d q, table_of (tm "1RB1RZ_0LA1LB") i 0 = Go w d q) /\
  brute_lnf (tm "1RB1RZ_0LA1LB") 2 2 = Some p.
Proof.
  eexists. split; [|split].
  - intros [|[|i]] [|[|j]] Hi Hj; try lia; vm_compute; auto.
  - intros [|[|i]] Hi; try lia; vm_compute; eauto.
  - vm_compute. reflexivity.
Qed.

(** A machine and its mirror image have different normal forms. *)
Theorem C48_mirror_refuted : exists tab tab' p p' s s', std_table 2 2 tab /\ std_table 2 2 tab' /\
  same_up_to_names 2 2 [0; 1] [0; 1] true (table_of tab) (table_of tab') /\ halts_1RZ tab /\ halts_1RZ tab' /\
  brute_lnf tab 2 2 = Some p /\ brute_lnf tab' 2 2 = Some p' /\
  ttable_str (lt_tab p) 2 2 = Some s /\ ttable_str (lt_tab p') 2 2 = Some s' /\ s <> s'.
Proof.
  exists (tm "0RB0RB_1RZ1LB"), (tm "0LB0LB_1RZ1RB"). do 4 eexists.
  split; [eapply (parse_std (list_ascii_of_string "0RB0RB_1RZ1LB")); vm_compute; reflexivity|].
  split; [eapply (parse_std (list_ascii_of_string "0LB0LB_1RZ1RB")); vm_compute; reflexivity|].
  split; [intros [|[|i]] [|[|j]] Hi Hj; try lia; vm_compute; auto|].
  split; [|split].
  1, 2: intros [|[|[|i]]] [|[|[|j]]] w d; vm_compute; try discriminate; intros [= <- <-]; auto.
  repeat (split; [vm_compute; reflexivity|]). discriminate.
Qed.

(** A machine without any halting cell and the same machine with its two symbols exchanged. *)
Theorem C48_symbols_refuted : exists tab tab' p p' s s', std_table 1 2 tab /\ std_table 1 2 tab' /\
  same_up_to_names 1 2 [0] [1; 0] false (table_of tab) (table_of tab') /\
  (forall i j, i < 1 -> j < 2 -> exists w d q, table_of tab i j = Go w d q) /\
  brute_lnf tab 1 2 = Some p /\ brute_lnf tab' 1 2 = Some p' /\
  ttable_str (lt_tab p) 1 2 = Some s /\ ttable_str (lt_tab p') 1 2 = Some s' /\ s <> s'.
Proof.
  exists (tm "0RA0LA"), (tm "1LA1RA"). do 4 eexists.
  split; [eapply (parse_std (list_ascii_of_string "0RA0LA")); vm_compute; reflexivity|].
  split; [eapply (parse_std (list_ascii_of_string "1LA1RA")); vm_compute; reflexivity|].
  split; [intros [|i] [|[|j]] Hi Hj; try lia; vm_compute; auto|].
  split; [intros [|i] [|[|j]] Hi Hj; try lia; vm_compute; eauto|].
  repeat (split; [vm_compute; reflexivity|]). discriminate.
Qed.

(** ** C49 *)

(** [tab'] has, in one running cell of [tab], another transition within the machine's states and symbols *)
Definition one_cell_variation (n m : nat) (tab tab' : ttable) : Prop :=
  std_table n m tab' /\ exists i j w d q w' d' q', i < n /\ j < m /\ w' < m /\ q' < n /\
    table_of tab i j = Go w d q /\ table_of tab' i j = Go w' d' q' /\ (w, d, q) <> (w', d', q') /\
    forall i' j', (i', j') <> (i, j) -> cell tab' i' j' = cell tab i' j'.

Lemma enum_cell_spec n m tab i j w d q : std_table n m tab -> i < n -> j < m ->
  cell tab i j = Some (running_trans i w d q) ->
  exists l, enum_cell tab n m i j = Some l /\ NoDup l /\
    forall tab', In tab' l <-> exists w' d' q', w' < m /\ q' < n /\ (w, d, q) <> (w', d', q') /\
      tab' = set_cell tab i j (running_trans i w' d' q').
Proof.
  intros (Hr & Hs) Hi Hj Ec. unfold enum_cell. assert (Ec' : cell_at tab i j = Some (running_trans i w d q)) by (rewrite cell_at_cell; exact Ec).
  rewrite Ec'. eexists. split; [reflexivity|].
  set (all := flat_map (fun q => flat_map (fun w => map (fun d => running_trans i w d q) [L; R]) (seq 0 m)) (seq 0 n)).
  assert (Hall : forall t, In t all <-> exists w' d' q', w' < m /\ q' < n /\ t = running_trans i w' d' q').
  { intros t. unfold all. rewrite in_flat_map. split.
    - intros (q' & Hq & H). apply in_flat_map in H. destruct H as (w' & Hw & H). apply in_map_iff in H. destruct H as (d' & <- & _).
      apply in_seq in Hq, Hw. exists w', d', q'. repeat split; auto; lia.
    - intros (w' & d' & q' & Hw & Hq & ->). exists q'. split; [apply in_seq; lia|]. apply in_flat_map. exists w'. split; [apply in_seq; lia|].
      apply in_map_iff. exists d'. split; auto. destruct d'; simpl; auto. }
  assert (Hne : forall w' d' q', trans_equals (running_trans i w d q) (running_trans i w' d' q') = false <-> (w, d, q) <> (w', d', q')).
  { intros w' d' q'. unfold trans_equals, running_trans. cbn [t_cond t_sym t_state t_dir cond_eqb sstate_eqb andb].
    destruct (Nat.eqb_spec w w') as [-> |Hw], (Nat.eqb_spec q q') as [-> |Hq], d, d'; simpl; split; intros H; try congruence. }
  split.
  - apply NoDup_map_inj.
    + intros x y _ _ E. eapply set_cell_inj; eauto.
    + apply NoDup_filter. unfold all. apply NoDup_flat_map; [apply seq_NoDup| |].
      * intros q' _. apply NoDup_flat_map; [apply seq_NoDup| |].
        -- intros w' _. apply FinFun.Injective_map_NoDup; [intros x y; unfold running_trans; congruence|]. repeat constructor; simpl; intuition discriminate.
        -- intros a c x _ _ Ha Hb. apply in_map_iff in Ha, Hb. destruct Ha as (? & <- & _), Hb as (? & E & _). unfold running_trans in E. congruence.
      * intros a c x _ _ Ha Hb. apply in_flat_map in Ha, Hb. destruct Ha as (? & _ & Ha), Hb as (? & _ & Hb).
        apply in_map_iff in Ha, Hb. destruct Ha as (? & <- & _), Hb as (? & E & _). unfold running_trans in E. congruence.
  - intros tab'. rewrite in_map_iff. split.
    + intros (t & <- & Ht). apply filter_In in Ht. destruct Ht as (Ht & Hn). apply Hall in Ht. destruct Ht as (w' & d' & q' & Hw & Hq & ->).
      exists w', d', q'. repeat split; auto. apply Hne. now apply negb_true_iff.
    + intros (w' & d' & q' & Hw & Hq & Hn & ->). eexists. split; [reflexivity|]. apply filter_In. split; [apply Hall; eauto 6|].
      apply negb_true_iff. now apply Hne.
Qed.

(** The tables that adjacent yields are exactly the one-cell variations, each once. *)
Theorem C49_adjacent_exact n m tab : std_table n m tab ->
  exists l, adjacent tab n m = Some l /\ NoDup l /\ forall tab', In tab' l <-> one_cell_variation n m tab tab'.
Proof.
  intros Hstd. pose proof Hstd as (Hr & Hs). unfold adjacent.
  set (F := fun a : nat * nat => match cell_at tab (fst a) (snd a) with
              | Some t => match t_cond t with RUNNING => enum_cell tab n m (fst a) (snd a) | _ => Some [] end
              | None => None end).
  set (P := fun (a : nat * nat) (tab' : ttable) => exists w d q w' d' q', w' < m /\ q' < n /\ (w, d, q) <> (w', d', q') /\
      cell tab (fst a) (snd a) = Some (running_trans (fst a) w d q) /\
      tab' = set_cell tab (fst a) (snd a) (running_trans (fst a) w' d' q')).
  assert (HF : forall a, In a (grid n m) -> exists l, F a = Some l /\ NoDup l /\ forall tab', In tab' l <-> P a tab').
  { intros (i & j) Ha. apply In_grid2 in Ha. simpl in Ha. destruct Ha as (Hi & Hj). unfold F, P. simpl.
    destruct (rect_cell n m tab i j Hr Hi Hj) as (t & Et). assert (Et' : cell_at tab i j = Some t) by (rewrite cell_at_cell; exact Et).
    rewrite Et'. pose proof (Hs _ _ _ Et) as Hst. destruct Hst as [|w d Hw|w d q Hw Hq]; simpl.
    1, 2: exists []; split; auto; split; [constructor|]; intros tab'; split; [intros []|];
      intros (w1 & d1 & q1 & w' & d' & q' & _ & _ & _ & E & _); unfold ttable, trans_row in *; rewrite Et in E; discriminate.
    destruct (enum_cell_spec n m tab i j w d q Hstd Hi Hj Et) as (l & El & Hnd & Hl). exists l. split; auto. split; auto.
    intros tab'. rewrite Hl. split.
    - intros (w' & d' & q' & H1 & H2 & H3 & H4). exists w, d, q, w', d', q'. auto.
    - intros (w1 & d1 & q1 & w' & d' & q' & H1 & H2 & H3 & E & H4). unfold ttable, trans_row in *. rewrite Et in E. injection E as -> -> ->. eauto 8. }
  destruct (otraverse_all (map F (grid n m))) as (ls & Els).
  { intros x Hx. apply in_map_iff in Hx. destruct Hx as (a & <- & Ha). destruct (HF a Ha) as (l & -> & _). discriminate. }
  rewrite Els. simpl. exists (List.concat ls). split; [reflexivity|].
  set (G := fun a => match F a with Some l => l | None => [] end).
  assert (EG : ls = map G (grid n m)).
  { assert (X : otraverse (map F (grid n m)) = Some (map G (grid n m))).
    { apply otraverse_map. intros a Ha. unfold G. destruct (HF a Ha) as (l & -> & _). reflexivity. }
    congruence. }
  assert (HG : forall a, In a (grid n m) -> NoDup (G a) /\ forall tab', In tab' (G a) <-> P a tab').
  { intros a Ha. unfold G. destruct (HF a Ha) as (l & -> & H). exact H. }
  rewrite EG, <- flat_map_concat_map.
  assert (Hcell : forall a tab', In a (grid n m) -> P a tab' -> std_table n m tab' /\
     exists w d q w' d' q', w' < m /\ q' < n /\ (w, d, q) <> (w', d', q') /\
     table_of tab (fst a) (snd a) = Go w d q /\ table_of tab' (fst a) (snd a) = Go w' d' q' /\
     forall i' j', (i', j') <> a -> cell tab' i' j' = cell tab i' j').
  { intros (i & j) tab' Ha (w & d & q & w' & d' & q' & Hw & Hq & Hne & Ec & ->). simpl in *. apply In_grid2 in Ha. destruct Ha as (Hi & Hj). simpl in *.
    split.
    - split; [now apply rect_set|]. intros a b t. rewrite cell_set. destruct (Nat.eqb_spec i a), (Nat.eqb_spec j b); simpl; auto.
      subst a b. rewrite Ec. intros [= <-]. now constructor.
    - exists w, d, q, w', d', q'. repeat split; auto.
      + now rewrite table_of_cell, Ec.
      + apply (table_set_trans n m tab i j w' d' q'); auto.
      + intros i' j' H. rewrite cell_set. destruct (Nat.eqb_spec i i'), (Nat.eqb_spec j j'); simpl; auto. congruence. }
  split.
  - apply NoDup_flat_map; [apply NoDup_grid| |].
    + intros a Ha. apply HG, Ha.
    + intros a c x Ha Hb Hxa Hxb. apply (HG a Ha) in Hxa. apply (HG c Hb) in Hxb.
      destruct (Hcell a x Ha Hxa) as (_ & w & d & q & w' & d' & q' & _ & _ & Hne & E1 & E2 & _).
      destruct (Hcell c x Hb Hxb) as (_ & _ & _ & _ & _ & _ & _ & _ & _ & _ & _ & _ & Ho).
      assert (D : {a = c} + {a <> c}) by (decide equality; apply Nat.eq_dec). destruct D as [|Hd]; auto. exfalso.
      destruct a as (i & j). specialize (Ho i j Hd). simpl in *. apply Hne. rewrite table_of_cell in E1, E2.
      unfold ttable, trans_row in *. rewrite Ho in E2. rewrite E1 in E2. congruence.
  - intros tab'. rewrite in_flat_map. split.
    + intros (a & Ha & Hin). apply (HG a Ha) in Hin. destruct (Hcell a tab' Ha Hin) as (H1 & w & d & q & w' & d' & q' & Hw & Hq & Hne & E1 & E2 & Ho).
      split; auto. destruct a as (i & j). apply In_grid2 in Ha. simpl in *. exists i, j, w, d, q, w', d', q'. repeat split; auto; tauto.
    + intros ((Hr' & Hs') & i & j & w & d & q & w' & d' & q' & Hi & Hj & Hw & Hq & E1 & E2 & Hne & Ho).
      assert (Ha : In (i, j) (grid n m)) by (apply In_grid2; auto). exists (i, j). split; auto. apply (HG _ Ha).
      destruct (rect_cell n m tab i j Hr Hi Hj) as (t & Et). destruct (rect_cell n m tab' i j Hr' Hi Hj) as (t' & Et').
      rewrite table_of_cell in E1, E2. unfold ttable, trans_row in *. rewrite Et in E1. rewrite Et' in E2.
      pose proof (Hs _ _ _ Et) as S1. pose proof (Hs' _ _ _ Et') as S2.
      destruct S1 as [| |w1 d1 q1 Hw1 Hq1]; try discriminate. destruct S2 as [| |w2 d2 q2 Hw2 Hq2]; try discriminate.
      simpl in E1, E2. injection E1 as -> -> ->. injection E2 as -> -> ->.
      exists w, d, q, w', d', q'. simpl. repeat split; auto.
      apply (rect_ext n m); auto; [now apply rect_set|]. intros a b Ha' Hb'. rewrite cell_set.
      destruct (Nat.eqb_spec i a), (Nat.eqb_spec j b); simpl.
      * subst a b. rewrite Et, Et'. reflexivity.
      * apply Ho. congruence.
      * apply Ho. congruence.
      * apply Ho. congruence.
Qed.
Example C49_example : exists l, std_table 2 2 (tm "1RB1LB_1LA1RZ") /\ adjacent (tm "1RB1LB_1LA1RZ") 2 2 = Some l /\ List.length l = 21.
Proof.
  eexists. split; [eapply (parse_std (list_ascii_of_string "1RB1LB_1LA1RZ")); vm_compute; reflexivity|].
  split; vm_compute; reflexivity.
Qed.

Print Assumptions C46_renamed_run.
Print Assumptions C46_score_refuted.
Print Assumptions C46_start_states.
Print Assumptions C47_first_visit_order.
Print Assumptions C47_in_tree_partial.
Print Assumptions C47_three_symbols_refuted.
Print Assumptions C48_same_machine.
Print Assumptions C48_canonical_partial.
Print Assumptions C48_mirror_refuted.
Print Assumptions C48_symbols_refuted.
Print Assumptions C49_adjacent_exact.
