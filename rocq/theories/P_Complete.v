(** * The tree contains every machine up to renaming *)
Require Import ZArith List Lia Bool Arith.
From Verif Require Import Spec_TM Spec_Rename M_Turing_Machine M_IO M_Enum P_Macro P_Quint P_IO P_Tree.
Import ListNotations.
Open Scope nat_scope.

(** The tables that the enumeration makes: the first one, and the children of every table at the
    undefined cell in which its run on the blank tape stops (Enumerate.py lines 154-179). *)
Inductive node (n m : nat) (allow_no_halt first_1rb : bool) : ttable -> Prop :=
| node_root tab : blank_tm_enum n m first_1rb = Some tab -> node n m allow_no_halt first_1rb tab
| node_child tab k i j b t l tab' :
    node n m allow_no_halt first_1rb tab -> halts_at (table_of tab) initial k i j b t ->
    enum_children tab n m allow_no_halt i j = Some l -> In tab' l -> node n m allow_no_halt first_1rb tab'.

(** ** orders *)

Lemma nth_lt_In (l : list nat) i : i < length l -> In (nth i l 0) l.
Proof. intros H. now apply nth_In. Qed.

Lemma order_take l x : NoDup l -> exists l' p,
  (l' = l \/ l' = l ++ [x] /\ ~ In x l /\ p = length l) /\ NoDup l' /\ p < length l' /\ p <= length l /\ nth p l' 0 = x.
Proof.
  intros Hl. destruct (in_dec Nat.eq_dec x l) as [H|H].
  - destruct (In_nth l x 0 H) as (p & Hp & E). exists l, p. repeat split; auto. lia.
  - exists (l ++ [x]), (length l). split; [right; auto|]. split.
    { apply NoDup_Add with (a := x) (l := l); [|split; auto].
      replace l with (l ++ []) at 1 by apply app_nil_r. apply Add_app. }
    rewrite app_length. simpl. repeat split; try lia. now rewrite nth_middle.
Qed.

Lemma nth_grow (l l' : list nat) x i : l' = l \/ l' = l ++ [x] -> i < length l -> nth i l' 0 = nth i l 0.
Proof. intros [-> | ->] H; auto. now apply app_nth1. Qed.

Lemma fresh_room n (l : list nat) x : NoDup l -> (forall y, In y l -> y < n) -> x < n -> ~ In x l -> length l < n.
Proof.
  intros Hd Hl Hx Hn. assert (H : length (x :: l) <= length (seq 0 n)).
  { apply NoDup_incl_length; [constructor; auto|]. intros y [<-|Hy]; apply in_seq; [lia|]. apply Hl in Hy. lia. }
  rewrite seq_length in H. simpl in H. lia.
Qed.

Lemma order_length n (l : list nat) : NoDup l -> (forall y, In y l -> y < n) -> length l <= n.
Proof.
  intros Hd Hl. rewrite <- (seq_length n 0). apply NoDup_incl_length; auto.
  intros y Hy. apply in_seq. apply Hl in Hy. lia.
Qed.

Section Complete.
  Variables (n m : nat) (M : table) (allow first : bool).
  Hypothesis HM : in_range n m M.

  Record inv (so syo : list nat) (b : bool) (tab : ttable) : Prop := {
    iv_rect : rect n m tab;
    iv_so : NoDup so /\ 0 < length so /\ nth 0 so 0 = 0 /\ forall x, In x so -> x < n;
    iv_syo : NoDup syo /\ 0 < length syo /\ nth 0 syo 0 = 0 /\ forall x, In x syo -> x < m;
    iv_cell : forall i j t, cell tab i j = Some t ->
      t = undefined_trans j i \/
      exists w d q, t = running_trans i w d q /\ i < length so /\ j < length syo /\ w < length syo /\ q < length so /\
        M (nth i so 0) (nth j syo 0) = Go (nth w syo 0) (mirror_dir b d) (nth q so 0);
    iv_state : length so = 1 \/ exists i j w d, cell tab i j = Some (running_trans i w d (length so - 1));
    iv_symbol : length syo = 1 \/ exists i j d q, cell tab i j = Some (running_trans i (length syo - 1) d q) }.

  Lemma inv_go so syo b tab i j w d q : inv so syo b tab -> table_of tab i j = Go w d q ->
    cell tab i j = Some (running_trans i w d q) /\ i < length so /\ j < length syo /\ w < length syo /\ q < length so /\
        M (nth i so 0) (nth j syo 0) = Go (nth w syo 0) (mirror_dir b d) (nth q so 0).
  Proof.
    intros H E. rewrite table_of_cell in E. destruct (cell tab i j) as [t|] eqn:Ec; [|discriminate].
    destruct (iv_cell _ _ _ _ H i j t Ec) as [-> | (w' & d' & q' & -> & H1)]; [discriminate|].
    simpl in E. injection E as -> -> ->. auto.
  Qed.

  Lemma inv_sub so syo b tab : inv so syo b tab ->
    sub_renamed (fun i => nth i so 0) (fun j => nth j syo 0) b (table_of tab) M.
  Proof. intros H i j w d q E. now apply (inv_go _ _ _ _ _ _ _ _ _ H) in E. Qed.

  Lemma inv_bounds so syo b tab k c : inv so syo b tab -> steps (table_of tab) k initial = Some c ->
    st c < length so /\ forall z, tp c z < length syo.
  Proof.
    intros H E. apply (in_range_steps (length so) (length syo) (table_of tab)) with (4 := E); simpl.
    - intros i j w d q _ _ Eg. apply (inv_go _ _ _ _ _ _ _ _ _ H) in Eg. tauto.
    - apply H.
    - intros _. apply H.
  Qed.

  Lemma inv_sizes so syo b tab : inv so syo b tab -> length so <= n /\ length syo <= m.
  Proof.
    intros H. split; apply order_length; apply H.
  Qed.

  (** a cell that M leaves halting is not defined in the table, and another undefined cell is left *)
  Lemma other_undefined so syo b tab i j w' d' q' hi hj w d e :
    inv so syo b tab -> i < length so -> j < length syo ->
    M (nth i so 0) (nth j syo 0) = Go w' d' q' ->
    hi < n -> hj < m -> M hi hj = Stop w d e ->
    exists i' j', i' < n /\ j' < m /\ (i, j) <> (i', j') /\ cell tab i' j' = Some (undefined_trans j' i').
  Proof.
    intros H Hi Hj Eg Hhi Hhj Es. destruct (inv_sizes _ _ _ _ H) as (Ln & Lm).
    destruct (iv_so _ _ _ _ H) as (Nso & _ & _ & Bso). destruct (iv_syo _ _ _ _ H) as (Nsy & _ & _ & Bsy).
    assert (G : forall i' j', i' < n -> j' < m ->
      (i' < length so -> j' < length syo -> nth i' so 0 = hi /\ nth j' syo 0 = hj) ->
      cell tab i' j' = Some (undefined_trans j' i')).
    { intros i' j' Hi' Hj' Hc. destruct (rect_cell n m tab i' j' (iv_rect _ _ _ _ H) Hi' Hj') as (t & Et).
      rewrite Et. destruct (iv_cell _ _ _ _ H i' j' t Et) as [-> | (w0 & d0 & q0 & _ & H1 & H2 & _ & _ & E0)]; auto.
      destruct (Hc H1 H2) as (Ea & Eb). rewrite Ea, Eb in E0. congruence. }
    destruct (in_dec Nat.eq_dec hi so) as [Hso|Hso].
    2:{ pose proof (fresh_room n so hi Nso Bso Hhi Hso). exists (length so), 0.
        split; [lia|]. split; [lia|]. split; [intros [= Hx _]; lia|]. apply G; lia. }
    destruct (in_dec Nat.eq_dec hj syo) as [Hsy|Hsy].
    2:{ pose proof (fresh_room m syo hj Nsy Bsy Hhj Hsy). exists 0, (length syo).
        split; [lia|]. split; [lia|]. split; [intros [= _ Hx]; lia|]. apply G; lia. }
    destruct (In_nth so hi 0 Hso) as (a & Ha & Ea). destruct (In_nth syo hj 0 Hsy) as (c & Hc & Ec).
    exists a, c. split; [lia|]. split; [lia|]. split.
    - intros [= -> ->]. rewrite Ea, Ec in Eg. congruence.
    - apply G; auto; lia.
  Qed.

  Lemma table_set_trans tab i j w d q : rect n m tab -> i < n -> j < m ->
    table_of (set_trans tab i j w d q) i j = Go w d q.
  Proof.
    intros Hr Hi Hj. unfold set_trans. rewrite table_of_cell, cell_set, !Nat.eqb_refl. simpl.
    destruct (rect_cell n m tab i j Hr Hi Hj) as (t & ->). reflexivity.
  Qed.
  Lemma table_set_other tab i j w d q i' j' : (i', j') <> (i, j) ->
    table_of (set_trans tab i j w d q) i' j' = table_of tab i' j'.
  Proof.
    intros H. unfold set_trans. rewrite !table_of_cell, cell_set.
    destruct (Nat.eqb_spec i i'), (Nat.eqb_spec j j'); simpl; auto. subst. congruence.
  Qed.

  (** the undefined cell reached is completed as M tells *)
  Lemma inv_extend so syo b tab i j w' d' q' :
    (allow = true \/ exists hi hj w d e, hi < n /\ hj < m /\ M hi hj = Stop w d e) ->
    inv so syo b tab -> i < length so -> j < length syo ->
    (forall w d q, table_of tab i j <> Go w d q) ->
    M (nth i so 0) (nth j syo 0) = Go w' d' q' ->
    exists so' syo' b' l w d q, enum_children tab n m allow i j = Some l /\
      In (set_trans tab i j w d q) l /\ inv so' syo' b' (set_trans tab i j w d q) /\
      extends (table_of tab) (table_of (set_trans tab i j w d q)).
  Proof.
    intros Hallow H Hi Hj Hun Eg. destruct (inv_sizes _ _ _ _ H) as (Ln & Lm).
    pose proof (iv_rect _ _ _ _ H) as Hr.
    destruct (iv_so _ _ _ _ H) as (Nso & Lso & Zso & Bso). destruct (iv_syo _ _ _ _ H) as (Nsy & Lsy & Zsy & Bsy).
    destruct (HM (nth i so 0) (nth j syo 0) w' d' q') as (Hw' & Hq'); auto.
    { apply Bso. now apply nth_In. } { apply Bsy. now apply nth_In. }
    destruct (rect_cell n m tab i j Hr ltac:(lia) ltac:(lia)) as (t0 & Et0).
    assert (t0 = undefined_trans j i) as ->.
    { destruct (iv_cell _ _ _ _ H i j t0 Et0) as [E|(w0 & d0 & q0 & -> & _)]; auto.
      exfalso. apply (Hun w0 d0 q0). now rewrite table_of_cell, Et0. }
    destruct (order_take so q' Nso) as (so' & q & Hso' & Nso' & Hq & Hqle & Eq).
    destruct (order_take syo w' Nsy) as (syo' & w & Hsyo' & Nsyo' & Hw & Hwle & Ew).
    destruct (all_trans_total n m tab Hr) as (ts & Ets).
    set (b' := if a_trans_defined ts then b else dir_eqb d' L).
    set (d := mirror_dir b' d').
    assert (Gso : so' = so \/ so' = so ++ [q']) by tauto. assert (Gsyo : syo' = syo \/ syo' = syo ++ [w']) by tauto.
    assert (Lso' : length so <= length so') by (destruct Gso as [-> | ->]; rewrite ?app_length; lia).
    assert (Lsyo' : length syo <= length syo') by (destruct Gsyo as [-> | ->]; rewrite ?app_length; lia).
    assert (Bso' : forall x, In x so' -> x < n).
    { intros x. destruct Gso as [-> | ->]; rewrite ?in_app_iff; simpl; [auto|]. intros [Hx|[<-|[]]]; auto. }
    assert (Bsyo' : forall x, In x syo' -> x < m).
    { intros x. destruct Gsyo as [-> | ->]; rewrite ?in_app_iff; simpl; [auto|]. intros [Hx|[<-|[]]]; auto. }
    pose proof (order_length n so' Nso' Bso') as Ln'. pose proof (order_length m syo' Nsyo' Bsyo') as Lm'.
    set (tab' := set_trans tab i j w d q).
    assert (Hcell : forall a c, cell tab' a c = if Nat.eqb i a && Nat.eqb j c then Some (running_trans i w d q) else cell tab a c).
    { intros a c. unfold tab', set_trans. rewrite cell_set.
      destruct (Nat.eqb_spec i a), (Nat.eqb_spec j c); simpl; auto. subst. now rewrite Et0. }
    assert (Hold : forall a c w0 d0 q0, cell tab a c = Some (running_trans a w0 d0 q0) -> cell tab' a c = Some (running_trans a w0 d0 q0)).
    { intros a c w0 d0 q0 E0. rewrite Hcell. destruct (Nat.eqb_spec i a), (Nat.eqb_spec j c); simpl; auto. subst.
      rewrite Et0 in E0. discriminate. }
    assert (Hb' : forall a c w0 d0 q0, cell tab a c = Some (running_trans a w0 d0 q0) -> b' = b).
    { intros a c w0 d0 q0 E0. unfold b'. destruct (a_trans_defined ts) eqn:Ea; auto. exfalso.
      destruct (cell_bounds _ _ _ _ _ _ Hr E0) as (Ha & Hc).
      assert (Hin : In (running_trans a w0 d0 q0) ts) by (apply (all_trans_In n m tab ts _ Ets); eauto).
      assert (a_trans_defined ts = true); [|congruence]. apply existsb_exists. exists (running_trans a w0 d0 q0). auto. }
    exists so', syo', b'.
    eexists. exists w, d, q. unfold enum_children. rewrite Ets. split; [reflexivity|]. split.
    - replace (allow || Nat.ltb 1 (num_undefined ts))%bool with true.
      2:{ symmetry. apply orb_true_iff. destruct Hallow as [Ha|(hi & hj & w0 & d0 & e & Hhi & Hhj & Es)]; [auto|right].
          apply Nat.ltb_lt.
          destruct (other_undefined _ _ _ _ _ _ _ _ _ _ _ _ _ _ H Hi Hj Eg Hhi Hhj Es) as (i' & j' & Hi' & Hj' & Hne & Eu).
          apply (undefined_two n m tab ts i j i' j' _ _ Ets Et0 Eu); auto; lia. }
      apply in_map_iff. exists (q, w, d). split; [reflexivity|]. apply In_choices.
      split; [lia|]. split; [lia|].
      destruct (max_state_spec ts) as (Ms & _). destruct (max_symbol_spec ts) as (My & _). split; [|split].
      + destruct (iv_state _ _ _ _ H) as [E1|(a & c & w0 & d0 & E1)]; [lia|].
        destruct (cell_bounds _ _ _ _ _ _ Hr E1) as (Ha & Hc).
        assert (length so - 1 <= max_state_of ts); [|lia].
        apply (Ms (running_trans a w0 d0 (length so - 1))); [|reflexivity]. apply (all_trans_In n m tab ts _ Ets); eauto.
      + destruct (iv_symbol _ _ _ _ H) as [E1|(a & c & d0 & q0 & E1)]; [lia|].
        destruct (cell_bounds _ _ _ _ _ _ Hr E1) as (Ha & Hc).
        assert (length syo - 1 <= max_symbol_of ts); [|lia].
        apply (My (running_trans a (length syo - 1) d0 q0)); [|reflexivity]. apply (all_trans_In n m tab ts _ Ets); eauto.
      + intros Ea. unfold d, b'. rewrite Ea. now destruct d'.
    - fold tab'. split.
      + constructor.
        * apply rect_set, Hr.
        * split; [exact Nso'|]. split; [lia|]. split; [|exact Bso']. rewrite (nth_grow so so' q'); auto.
        * split; [exact Nsyo'|]. split; [lia|]. split; [|exact Bsyo']. rewrite (nth_grow syo syo' w'); auto.
        * intros a c t. rewrite Hcell. destruct (Nat.eqb_spec i a), (Nat.eqb_spec j c); simpl; intros E0.
          1:{ subst a c. injection E0 as <-. right. exists w, d, q. split; [reflexivity|].
              split; [lia|]. split; [lia|]. split; [lia|]. split; [lia|].
              rewrite (nth_grow so so' q'), (nth_grow syo syo' w') by auto.
              rewrite Eg, Eq, Ew. unfold d. now rewrite mirror_dir_invol. }
          all: destruct (iv_cell _ _ _ _ H a c t E0) as [-> | (w0 & d0 & q0 & -> & H1 & H2 & H3 & H4 & E1)]; [auto|right];
            rewrite (Hb' _ _ _ _ _ E0); exists w0, d0, q0; split; [reflexivity|];
            (split; [lia|]); (split; [lia|]); (split; [lia|]); (split; [lia|]);
            rewrite !(nth_grow so so' q'), !(nth_grow syo syo' w') by auto; exact E1.
        * destruct Hso' as [-> | (-> & Hni & Ep)].
          -- destruct (iv_state _ _ _ _ H) as [E1|(a & c & w0 & d0 & E1)]; [auto|]. right. exists a, c, w0, d0. auto.
          -- right. exists i, j, w, d. rewrite Hcell, !Nat.eqb_refl. simpl. rewrite app_length. simpl.
             do 2 f_equal. subst q. lia.
        * destruct Hsyo' as [-> | (-> & Hni & Ep)].
          -- destruct (iv_symbol _ _ _ _ H) as [E1|(a & c & d0 & q0 & E1)]; [auto|]. right. exists a, c, d0, q0. auto.
          -- right. exists i, j, d, q. rewrite Hcell, !Nat.eqb_refl. simpl. rewrite app_length. simpl.
             do 2 f_equal. subst w. lia.
      + intros a c w0 d0 q0 E0. unfold tab'. rewrite table_set_other; auto. intros [= -> ->]. now apply (Hun w0 d0 q0).
  Qed.

  Lemma follow root : (allow = true \/ exists hi hj w d e, hi < n /\ hj < m /\ M hi hj = Stop w d e) ->
    blank_tm_enum n m first = Some root -> (exists so syo b, inv so syo b root) ->
    forall k c', steps M k initial = Some c' ->
    exists tab so syo b c, node n m allow first tab /\ inv so syo b tab /\
      steps (table_of tab) k initial = Some c /\ renames (fun i => nth i so 0) (fun j => nth j syo 0) b c c'.
  Proof.
    intros Hallow Eroot (so0 & syo0 & b0 & H0) k.
    assert (Gr : forall so syo b tab k c c', inv so syo b tab -> steps (table_of tab) k initial = Some c ->
      steps M k initial = Some c' -> renames (fun i => nth i so 0) (fun j => nth j syo 0) b c c').
    { intros so syo b tab k0 c c' H E E'.
      destruct (renames_steps _ _ _ _ _ (inv_sub _ _ _ _ H) k0 initial initial c) as (c1 & E1 & R); auto.
      { apply renames_initial; apply H. } congruence. }
    induction k as [|k IH]; intros c' E.
    - exists root, so0, syo0, b0, initial. split; [now apply node_root|]. split; [exact H0|].
      split; [reflexivity|]. apply (Gr so0 syo0 b0 root 0); auto.
    - rewrite steps_S in E. destruct (steps M k initial) as [c1'|] eqn:E1; [|discriminate].
      destruct (IH c1' eq_refl) as (tab & so & syo & b & c1 & Hn & H & Ec1 & R).
      destruct (inv_bounds _ _ _ _ _ _ H Ec1) as (Hi & Hj).
      assert (Em : exists w' d' q', M (nth (st c1) so 0) (nth (tp c1 (hd c1)) syo 0) = Go w' d' q').
      { unfold step in E. rewrite (renames_read _ _ _ _ _ R) in E. destruct R as (Rs & _). rewrite Rs in E.
        destruct (M (nth (st c1) so 0) (nth (tp c1 (hd c1)) syo 0)); [eauto|discriminate]. }
      assert (Ee : steps M (S k) initial = Some c') by (rewrite steps_S, E1; exact E).
      destruct (table_of tab (st c1) (tp c1 (hd c1))) as [w d q|w d e] eqn:Et.
      + set (c := Cfg q (hd c1 + dz d) (put (tp c1) (hd c1) w)).
        assert (Ek : steps (table_of tab) (S k) initial = Some c) by (rewrite steps_S, Ec1; unfold step; now rewrite Et).
        exists tab, so, syo, b, c. split; [exact Hn|]. split; [exact H|]. split; [exact Ek|]. eapply Gr; eauto.
      + destruct Em as (w' & d' & q' & Em).
        destruct (inv_extend so syo b tab (st c1) (tp c1 (hd c1)) w' d' q') as (so' & syo' & b' & l & w0 & d0 & q0 & El & Hin & H' & Hext); auto.
        { intros. congruence. }
        set (tab' := set_trans tab (st c1) (tp c1 (hd c1)) w0 d0 q0) in *.
        assert (Hn' : node n m allow first tab').
        { eapply node_child; eauto. exists k, c1, w, d. repeat split; auto. exact Et. }
        assert (Et' : table_of tab' (st c1) (tp c1 (hd c1)) = Go w0 d0 q0).
        { apply table_set_trans; [apply H| |]; destruct (inv_sizes _ _ _ _ H); try lia. specialize (Hj (hd c1)). lia. }
        set (c := Cfg q0 (hd c1 + dz d0)%Z (put (tp c1) (hd c1) w0)).
        assert (Ek : steps (table_of tab') (S k) initial = Some c).
        { rewrite steps_S, (extends_steps _ _ Hext _ _ _ Ec1). unfold step. now rewrite Et'. }
        exists tab', so', syo', b', c. split; [exact Hn'|]. split; [exact H'|]. split; [exact Ek|]. eapply Gr; eauto.
  Qed.

  (** ** the roots *)

  Lemma root_free : 0 < n -> 0 < m -> exists root, blank_tm_enum n m false = Some root /\ inv [0] [0] false root.
  Proof.
    intros Hn Hm. unfold blank_tm_enum.
    destruct (tm_from_quintuples [] n m) as [root|] eqn:E.
    2:{ exfalso. revert E. apply quintuples_accepts. constructor. }
    exists root. split; [reflexivity|]. destruct (quintuples_rect _ _ _ _ E) as (Hr & _). constructor; auto.
    - split; [repeat constructor; simpl; tauto|]. simpl. repeat split; try lia; intros x [<-|[]]; auto.
    - split; [repeat constructor; simpl; tauto|]. simpl. repeat split; try lia; intros x [<-|[]]; auto.
    - intros i j t Et. destruct (cell_bounds _ _ _ _ _ _ Hr Et) as (Hi & Hj).
      pose proof (quintuples_cells _ _ _ _ i j E Hi Hj) as Hc. unfold ttable, trans_row in *. rewrite Et in Hc.
      left. injection Hc as ->. reflexivity.
  Qed.

  Lemma root_1rb w d q : 1 < n -> 1 < m -> M 0 0 = Go w d q -> w <> 0 -> q <> 0 ->
    exists root, blank_tm_enum n m true = Some root /\ inv [0; q] [0; w] (dir_eqb d L) root.
  Proof.
    intros Hn Hm E0 Hw Hq. destruct (HM 0 0 w d q ltac:(lia) ltac:(lia) E0) as (Bw & Bq). unfold blank_tm_enum.
    destruct (tm_from_quintuples [Quint 0 0 (Some 1) R (SRun 1)] n m) as [root|] eqn:E.
    2:{ exfalso. revert E. apply quintuples_accepts. constructor; [|constructor].
        unfold row_in_range. simpl. lia. }
    exists root. split; [reflexivity|]. destruct (quintuples_rect _ _ _ _ E) as (Hr & _).
    pose proof (quintuples_cells _ _ _ _ 0 0 E ltac:(lia) ltac:(lia)) as H00. simpl in H00.
    constructor; auto.
    - split; [repeat constructor; simpl; lia|]. simpl. repeat split; try lia; intros x [<-|[<-|[]]]; lia.
    - split; [repeat constructor; simpl; lia|]. simpl. repeat split; try lia; intros x [<-|[<-|[]]]; lia.
    - intros i j t Et. destruct (cell_bounds _ _ _ _ _ _ Hr Et) as (Hi & Hj).
      pose proof (quintuples_cells _ _ _ _ i j E Hi Hj) as Hc. unfold ttable, trans_row in *. rewrite Et in Hc.
      injection Hc as ->. unfold last_row, row_for, find, rev, app. cbn [q_state_in q_symbol_in q_symbol_out].
      rewrite andb_true_r.
      destruct (Nat.eqb_spec 0 i), (Nat.eqb_spec 0 j); cbn [andb]; auto. subst i j. right.
      exists 1, R, 1. split; [reflexivity|]. simpl. repeat split; try lia. rewrite E0. f_equal. now destruct d.
    - right. exists 0, 0, 1, R. exact H00.
    - right. exists 0, 0, R, 1. exact H00.
  Qed.
End Complete.
