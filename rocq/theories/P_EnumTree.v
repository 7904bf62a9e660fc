(** * The enumeration of machines: every node of the tree once *)
Require Import ZArith List Lia Bool Arith Permutation.
From Verif Require Import Spec_TM Spec_Rename M_Turing_Machine M_IO M_Enum P_Macro P_Quint P_IO P_Tree P_Complete P_Unique P_Queue.
Import ListNotations.
Open Scope nat_scope.

Section Tree.
  Variables (n m : nat) (allow : bool).
  (** the cell in which the run of a machine was found to stop, if it was *)
  Variable verdict : ttable -> option (nat * nat).
  Hypothesis sound : forall tab i j, verdict tab = Some (i, j) -> exists k b t, halts_at (table_of tab) initial k i j b t.

  Definition expand_tm (tab : ttable) : list ttable :=
    match verdict tab with
    | Some (i, j) => match enum_children tab n m allow i j with Some l => l | None => [] end
    | None => []
    end.

  Lemma expand_child tab tab' : In tab' (expand_tm tab) -> child n m allow tab tab'.
  Proof.
    unfold expand_tm. destruct (verdict tab) as [(i & j)|] eqn:E; [|intros []]. destruct (sound _ _ _ E) as (k & b & t & Hh).
    destruct (enum_children tab n m allow i j) as [l|] eqn:El; [|intros []]. intros H. exists k, i, j, b, t, l. auto.
  Qed.

  Definition separate (x y : ttable) : Prop :=
    exists i j w d q w' d' q', table_of x i j = Go w d q /\ table_of y i j = Go w' d' q' /\ (w, d, q) <> (w', d', q').

  Lemma forest_desc js nodes : forest expand_tm js nodes -> forall tab, In tab nodes -> exists j, In j js /\ desc n m allow j tab.
  Proof.
    induction 1 as [|j js a b _ IH1 _ IH2]; simpl; intros tab H; [destruct H|]. destruct H as [<-|H].
    - exists j. split; auto. constructor.
    - apply in_app_iff in H. destruct H as [H|H].
      + destruct (IH1 _ H) as (x & Hx & D). exists j. split; auto. eapply desc_step; [|exact D]. now apply expand_child.
      + destruct (IH2 _ H) as (x & Hx & D). eauto.
  Qed.

  Lemma expand_nodup tab a c : tinv n m a c tab -> NoDup (expand_tm tab) /\
    forall x y, In x (expand_tm tab) -> In y (expand_tm tab) -> x <> y -> separate x y.
  Proof.
    intros H. unfold expand_tm. destruct (verdict tab) as [(i & j)|] eqn:E; [|split; [constructor|intros x y []]].
    destruct (sound _ _ _ E) as (k & b & t & (k' & x & w0 & d0 & _ & Ek & -> & -> & Es & _)).
    destruct (tinv_bounds _ _ _ _ _ _ _ H Ek) as (Hi & Hj). specialize (Hj (hd x)).
    destruct (ti_pos _ _ _ _ _ H) as (Ha & Hc). pose proof (ti_rect _ _ _ _ _ H) as Hr.
    unfold enum_children. destruct (all_trans tab n m) as [ts|]; [|split; [constructor|intros ? ? []]].
    destruct (allow || Nat.ltb 1 (num_undefined ts))%bool; [|split; [constructor|intros ? ? []]]. split.
    - apply NoDup_map_inj; [|apply NoDup_choices]. intros ((q1 & w1) & d1) ((q2 & w2) & d2) _ _ Eq.
      apply (set_cell_inj n m) in Eq; auto; try lia. unfold running_trans in Eq. congruence.
    - intros y z Hy Hz Hne. apply in_map_iff in Hy, Hz.
      destruct Hy as (((q1 & w1) & d1) & <- & _), Hz as (((q2 & w2) & d2) & <- & _).
      exists (st x), (tp x (hd x)), w1, d1, q1, w2, d2, q2.
      rewrite !(table_set_trans n m) by (auto; lia). repeat split; auto. intros [= -> -> ->]. now apply Hne.
  Qed.

  Lemma forest_nodup js nodes : forest expand_tm js nodes ->
    NoDup js -> (forall x y, In x js -> In y js -> x <> y -> separate x y) ->
    (forall x, In x js -> exists a c, tinv n m a c x) -> NoDup nodes.
  Proof.
    induction 1 as [|j js a b F1 IH1 F2 IH2]; intros Hd Hs Ht; [constructor|].
    inversion Hd as [|? ? Hnj Hd']; subst. destruct (Ht j (or_introl eq_refl)) as (x & c & Hj).
    destruct (expand_nodup j x c Hj) as (Nd & Sp).
    assert (Na : NoDup a).
    { apply IH1; auto. intros y Hy. apply expand_child in Hy.
      destruct (child_spec _ _ _ _ _ _ _ Hj Hy) as (? & ? & ? & ? & ? & ? & ? & _ & _ & _ & _ & _ & _ & _ & Hi & _). eauto. }
    assert (Nb : NoDup b) by (apply IH2; auto; intros; [apply Hs; simpl; auto|apply Ht; simpl; auto]).
    (* descendants of a child of j run on where j stops *)
    assert (A1 : forall tab, In tab a -> exists tab1, child n m allow j tab1 /\ desc n m allow tab1 tab).
    { intros tab H. destruct (forest_desc _ _ F1 _ H) as (y & Hy & D). exists y. split; auto. now apply expand_child. }
    assert (A2 : forall tab, In tab b -> extends (table_of j) (table_of tab) -> False).
    { intros tab H He. destruct (forest_desc _ _ F2 _ H) as (y & Hy & D).
      destruct (Ht y (or_intror Hy)) as (x' & c' & Hy').
      destruct (Hs j y) as (i0 & j0 & w & d & q & w' & d' & q' & G1 & G2 & Hne); simpl; auto.
      { intros ->. contradiction. }
      pose proof (desc_extends _ _ _ _ _ D _ _ Hy' _ _ _ _ _ G2) as G2'. apply He in G1. rewrite G1 in G2'. congruence. }
    constructor.
    - rewrite in_app_iff. intros [H|H].
      + destruct (A1 _ H) as (tab1 & Hc & D). destruct (desc_runs_on _ _ _ _ _ _ _ _ Hj Hc D) as (k & E1 & E2). congruence.
      + apply (A2 _ H). intros i0 j0 w d q E. exact E.
    - revert Na. assert (A3 : forall tab, In tab a -> ~ In tab b).
      { intros tab Ha Hb. apply (A2 _ Hb). destruct (A1 _ Ha) as (tab1 & Hc & D).
        apply (desc_extends n m allow) with (a := x) (c := c); auto. eapply desc_step; eauto. }
      clear -A3 Nb. induction 1 as [|y l Hn Hl IH]; simpl; auto. constructor.
      + rewrite in_app_iff. intros [H|H]; auto. apply (A3 y); simpl; auto.
      + apply IH. intros z Hz. apply A3. simpl; auto.
  Qed.

  (** the enumeration from the first table lists nodes of the tree, none twice, and all of them if
      no halting node goes unnoticed *)
  Theorem enum_tree first root nodes : 0 < n -> 0 < m -> blank_tm_enum n m first = Some root ->
    forest expand_tm [root] nodes ->
    NoDup nodes /\ (forall tab, In tab nodes -> node n m allow first tab) /\
    ((forall tab k i j b t, node n m allow first tab -> halts_at (table_of tab) initial k i j b t -> verdict tab <> None) ->
     forall tab, node n m allow first tab -> In tab nodes).
  Proof.
    intros Hn Hm E F. destruct (root_tinv _ _ _ _ E Hn Hm) as (H & _). split; [|split].
    - apply (forest_nodup _ _ F).
      + repeat constructor. intros [].
      + intros x y [<-|[]] [<-|[]] Hne. now elim Hne.
      + intros x [<-|[]]. eauto.
    - intros tab Ht. destruct (forest_desc _ _ F _ Ht) as (j & [<-|[]] & D). clear -E D.
      assert (N : node n m allow first root) by now apply node_root. revert N. clear E.
      induction D as [tab|tab tab1 tab2 (k & i & j & b & t & l & Hh & El & Hin) _ IH]; auto.
      intros N. apply IH. eapply node_child; eauto.
    - intros Hc tab Hnode. induction Hnode as [tab E'|tab k i j b t l tab' Hnode IH Hh El Hin].
      + assert (tab = root) as -> by congruence. eapply forest_In_self; eauto. simpl. auto.
      + apply (forest_closed _ _ _ tab tab' F IH). unfold expand_tm.
        destruct (verdict tab) as [(i' & j')|] eqn:Ev; [|exfalso; eapply Hc; eauto].
        destruct (sound _ _ _ Ev) as (k' & b' & t' & Hh').
        destruct (halts_at_fun _ _ _ _ _ _ _ _ _ _ _ _ Hh Hh') as (_ & <- & <- & _). now rewrite El.
  Qed.
End Tree.
