(** * Renaming a table; tree normal form *)
Require Import ZArith List Lia Bool Arith Permutation.
From Verif Require Import Spec_TM Spec_Rename M_Turing_Machine M_Direct M_IO M_Enum P_Macro P_Direct P_Quint P_IO P_Tree P_Complete2.
Import ListNotations.
Open Scope nat_scope.

(** tables whose steps, details and last-seen fields may be anything *)
Definition basic_cell (n m : nat) (t : transition nat sstate) : Prop :=
  match t_cond t with
  | RUNNING => t_sym t < m /\ exists q, t_state t = SRun q /\ q < n
  | HALT | UNDEFINED => t_state t = SHalt
  | _ => False
  end.
Definition basic_table (n m : nat) (tab : ttable) : Prop :=
  rect n m tab /\ forall i j t, cell tab i j = Some t -> basic_cell n m t.

Lemma std_basic n m tab : std_table n m tab -> basic_table n m tab.
Proof.
  intros (Hr & H). split; auto. intros i j t E. specialize (H _ _ _ E). destruct H; unfold basic_cell; simpl; eauto.
Qed.

Lemma basic_in_range n m tab : basic_table n m tab -> in_range n m (table_of tab).
Proof.
  intros (Hr & H) i j w d q _ _ E. rewrite table_of_cell in E. destruct (cell tab i j) as [t|] eqn:Ec; [|discriminate].
  specialize (H _ _ _ Ec). unfold basic_cell in H. destruct (t_cond t); try discriminate.
  destruct H as (Hw & q' & Eq & Hq). rewrite Eq in E. injection E as <- <- <-. auto.
Qed.

(** ** old2new *)

Lemma old2new_from_spec order old : forall k, NoDup order ->
  match old2new_from k order old with
  | Some v => k <= v /\ nth_error order (v - k) = Some old
  | None => ~ In old order
  end.
Proof.
  induction order as [|a order IH]; simpl; intros k Hd; [tauto|]. inversion Hd as [|? ? Hn Hd']; subst.
  specialize (IH (S k) Hd'). destruct (old2new_from (S k) order old) as [v|].
  - destruct IH as (H1 & H2). split; [lia|]. now replace (v - k) with (S (v - S k)) by lia.
  - destruct (Nat.eqb_spec a old) as [-> |Hne].
    + split; [lia|]. now rewrite Nat.sub_diag.
    + intros [H|H]; auto.
Qed.

Lemma old2new_spec n order i : Permutation order (seq 0 n) -> i < n ->
  exists v, old2new order i = Some v /\ v < n /\ nth v order 0 = i.
Proof.
  intros P Hi. assert (Hd : NoDup order) by (eapply Permutation_NoDup; [symmetry; exact P|apply seq_NoDup]).
  assert (Hin : In i order) by (eapply Permutation_in; [symmetry; exact P|apply in_seq; lia]).
  pose proof (old2new_from_spec order i 0 Hd) as H. unfold old2new. destruct (old2new_from 0 order i) as [v|]; [|contradiction].
  destruct H as (_ & H). rewrite Nat.sub_0_r in H. exists v. split; auto.
  assert (Hl : length order = n) by (rewrite (Permutation_length P); apply seq_length).
  split; [rewrite <- Hl; apply nth_error_Some; congruence|]. now apply nth_error_nth.
Qed.

Lemma order_permutes n order : Permutation order (seq 0 n) -> permutes n (fun i => nth i order 0).
Proof.
  intros P. apply nth_permutes.
  - eapply Permutation_NoDup; [symmetry; exact P|apply seq_NoDup].
  - intros x. split; intros H.
    + apply (Permutation_in _ P), in_seq in H. lia.
    + apply (Permutation_in _ (Permutation_sym P)), in_seq. lia.
  - rewrite (Permutation_length P). apply seq_length.
Qed.

(** ** permute_table *)

Definition permuted (n m : nat) (so syo : list nat) (b : bool) (tab tab' : ttable) : Prop :=
  rect n m tab' /\ forall i j, i < n -> j < m -> exists t t',
    cell tab (nth i so 0) (nth j syo 0) = Some t /\ permute_trans so syo b t = Some t' /\ cell tab' i j = Some t'.

Lemma permute_trans_total n m so syo b t : Permutation so (seq 0 n) -> Permutation syo (seq 0 m) -> basic_cell n m t ->
  exists t', permute_trans so syo b t = Some t'.
Proof.
  intros Ps Py H. unfold basic_cell in H. unfold permute_trans. destruct (t_cond t) eqn:Ec; try contradiction; eauto.
  destruct H as (Hw & q & -> & Hq). destruct (old2new_spec m syo _ Py Hw) as (v & -> & _).
  destruct (old2new_spec n so _ Ps Hq) as (v' & -> & _). eauto.
Qed.

Lemma permute_cells_spec old so syo b n m : forall cells new,
  rect n m new ->
  (forall i i' j j', In ((i, i'), (j, j')) cells -> i < n /\ j < m /\
     exists t t', cell old i' j' = Some t /\ permute_trans so syo b t = Some t') ->
  exists new', permute_cells old so syo b cells new = Some new' /\ rect n m new' /\
    (forall a c, (exists i' j', In ((a, i'), (c, j')) cells) \/ cell new' a c = cell new a c) /\
    (forall a c, (exists i' j', In ((a, i'), (c, j')) cells) ->
       exists i' j' t, In ((a, i'), (c, j')) cells /\ cell old i' j' = Some t /\ cell new' a c = permute_trans so syo b t).
Proof.
  induction cells as [|((i & i') & (j & j')) cells IH]; intros new Hr H.
  - exists new. repeat split; auto; try apply Hr. intros a c (? & ? & []).
  - destruct (H i i' j j') as (Hi & Hj & t & t' & Et & Et'); [simpl; auto|].
    destruct (rect_cell n m new i j Hr Hi Hj) as (u & Eu).
    assert (E1 : cell_at old i' j' = Some t) by (rewrite cell_at_cell; exact Et).
    assert (E2 : cell_at new i j = Some u) by (rewrite cell_at_cell; exact Eu).
    cbn [permute_cells]. rewrite E1, E2, Et'.
    destruct (IH (set_cell new i j t')) as (new' & E & Hr' & H1 & H2).
    { now apply rect_set. } { intros. apply H. simpl. auto. }
    exists new'. split; [exact E|]. split; [exact Hr'|]. split.
    + intros a c. destruct (H1 a c) as [(x & y & Hin)|Ec]; [left; exists x, y; simpl; auto|].
      destruct (Nat.eq_dec i a) as [-> |Ha]; [destruct (Nat.eq_dec j c) as [-> |Hc]|].
      * left. exists i', j'. simpl. auto.
      * right. rewrite Ec, cell_set. destruct (Nat.eqb_spec j c); [contradiction|]. now rewrite andb_false_r.
      * right. rewrite Ec, cell_set. destruct (Nat.eqb_spec i a); [contradiction|]. reflexivity.
    + intros a c Hin.
      assert (Hd : (exists x y, In ((a, x), (c, y)) cells) \/ ~ (exists x y, In ((a, x), (c, y)) cells)).
      { destruct (existsb (fun p => Nat.eqb (fst (fst p)) a && Nat.eqb (fst (snd p)) c)%bool cells) eqn:Ex.
        - left. apply existsb_exists in Ex. destruct Ex as (((x1 & x2) & (y1 & y2)) & Hin' & Ex). simpl in Ex.
          apply andb_true_iff in Ex. rewrite !Nat.eqb_eq in Ex. destruct Ex as (-> & ->). eauto.
        - right. intros (x & y & Hin'). assert (existsb (fun p => Nat.eqb (fst (fst p)) a && Nat.eqb (fst (snd p)) c)%bool cells = true); [|congruence].
          apply existsb_exists. exists ((a, x), (c, y)). split; auto. simpl. now rewrite !Nat.eqb_refl. }
      destruct Hd as [Hd|Hd].
      * destruct (H2 a c Hd) as (x & y & t0 & Hin' & Et0 & Ec). exists x, y, t0. simpl. auto.
      * destruct (H1 a c) as [Hbad|Ec]; [contradiction|]. destruct Hin as (x & y & [Hin|Hin]); [|exfalso; eauto].
        injection Hin as -> -> -> ->. exists x, y, t. split; [simpl; auto|]. split; [exact Et|].
        rewrite Ec, cell_set, !Nat.eqb_refl. simpl. destruct (rect_cell n m new a c Hr Hi Hj) as (u' & ->). congruence.
Qed.

Lemma In_enumerate {A} (l : list A) i x : In (i, x) (enumerate l) <-> nth_error l i = Some x.
Proof.
  unfold enumerate. assert (G : forall k, In (i, x) (combine (seq k (length l)) l) <-> k <= i /\ nth_error l (i - k) = Some x).
  { induction l as [|a l IH]; simpl; intros k.
    - split; [intros []|]. intros (_ & H). destruct (i - k); discriminate.
    - rewrite IH. split.
      + intros [[= -> ->]|(H1 & H2)]; [split; [lia|]; now rewrite Nat.sub_diag|].
        split; [lia|]. now replace (i - k) with (S (i - S k)) by lia.
      + intros (H1 & H2). destruct (Nat.eq_dec k i) as [-> |Hne]; [rewrite Nat.sub_diag in H2; injection H2 as ->; auto|].
        right. split; [lia|]. now replace (i - k) with (S (i - S k)) in H2 by lia. }
  rewrite (G 0). rewrite Nat.sub_0_r. split; [tauto|]. split; [lia|tauto].
Qed.

Theorem permute_table_ok n m tab so syo b :
  basic_table n m tab -> Permutation so (seq 0 n) -> Permutation syo (seq 0 m) ->
  exists tab', permute_table tab so syo b = Some tab' /\ permuted n m so syo b tab tab'.
Proof.
  intros (Hr & Hb) Ps Py. unfold permute_table.
  assert (Ls : length so = n) by (rewrite (Permutation_length Ps); apply seq_length).
  assert (Ly : length syo = m) by (rewrite (Permutation_length Py); apply seq_length).
  assert (Hin : forall i i' j j', In ((i, i'), (j, j')) (list_prod (enumerate so) (enumerate syo)) <->
     i < n /\ j < m /\ i' = nth i so 0 /\ j' = nth j syo 0).
  { intros i i' j j'. rewrite in_prod_iff, !In_enumerate. split.
    - intros (E1 & E2). assert (i < n) by (rewrite <- Ls; apply nth_error_Some; congruence).
      assert (j < m) by (rewrite <- Ly; apply nth_error_Some; congruence).
      repeat split; auto; symmetry; now apply nth_error_nth.
    - intros (Hi & Hj & -> & ->). split; apply nth_error_nth'; lia. }
  destruct (order_permutes n so Ps) as (_ & Bs). destruct (order_permutes m syo Py) as (_ & By).
  destruct (permute_cells_spec tab so syo b n m (list_prod (enumerate so) (enumerate syo)) tab Hr) as (tab' & E & Hr' & _ & H).
  { intros i i' j j' H. apply Hin in H. destruct H as (Hi & Hj & -> & ->). split; [auto|]. split; [auto|].
    destruct (rect_cell n m tab (nth i so 0) (nth j syo 0) Hr (Bs _ Hi) (By _ Hj)) as (t & Et). exists t.
    destruct (permute_trans_total n m so syo b t Ps Py (Hb _ _ _ Et)) as (t' & Et'). eauto. }
  exists tab'. split; [exact E|]. split; [exact Hr'|]. intros i j Hi Hj.
  destruct (H i j) as (i' & j' & t & Hx & Et & Ec).
  { exists (nth i so 0), (nth j syo 0). now apply Hin. }
  apply Hin in Hx. destruct Hx as (_ & _ & -> & ->).
  destruct (permute_trans_total n m so syo b t Ps Py (Hb _ _ _ Et)) as (t' & Et'). exists t, t'. rewrite Ec. auto.
Qed.

Lemma permuted_basic n m so syo b tab tab' :
  basic_table n m tab -> Permutation so (seq 0 n) -> Permutation syo (seq 0 m) ->
  permuted n m so syo b tab tab' -> basic_table n m tab'.
Proof.
  intros (Hr & Hb) Ps Py (Hr' & H). split; auto. intros i j t' Et'. destruct (cell_bounds _ _ _ _ _ _ Hr' Et') as (Hi & Hj).
  destruct (H i j Hi Hj) as (t & t1 & Et & Ep & E1). assert (t1 = t') as -> by congruence.
  specialize (Hb _ _ _ Et). unfold permute_trans in Ep. unfold basic_cell in *. destruct (t_cond t) eqn:Ec; try discriminate; try (injection Ep as <-; simpl; reflexivity).
  destruct Hb as (Hw & q & Eq & Hq). rewrite Eq in Ep.
  destruct (old2new_spec m syo _ Py Hw) as (v & Ev & Hv & _). rewrite Ev in Ep.
  destruct (old2new_spec n so _ Ps Hq) as (v' & Ev' & Hv' & _). rewrite Ev' in Ep. injection Ep as <-. simpl. eauto.
Qed.

(** the cells of the new table *)
Lemma permuted_cells n m so syo b tab tab' i j :
  basic_table n m tab -> Permutation so (seq 0 n) -> Permutation syo (seq 0 m) ->
  permuted n m so syo b tab tab' -> i < n -> j < m ->
  match table_of tab (nth i so 0) (nth j syo 0), table_of tab' i j with
  | Go w d q, Go w' d' q' => nth w' syo 0 = w /\ mirror_dir b d' = d /\ nth q' so 0 = q
  | Stop _ _ e, Stop w' d' e' => e = e' /\ w' = 1 /\ d' = R
  | _, _ => False
  end.
Proof.
  intros (Hr & Hb) Ps Py (Hr' & H) Hi Hj. destruct (H i j Hi Hj) as (t & t' & Et & Ep & Et').
  specialize (Hb _ _ _ Et). rewrite !table_of_cell, Et, Et'. unfold permute_trans in Ep. unfold basic_cell in Hb.
  destruct (t_cond t) eqn:Ec; try discriminate; try (injection Ep as <-; simpl; auto; fail).
  destruct Hb as (Hw & q & Eq & Hq). rewrite Eq in Ep |- *.
  destruct (old2new_spec m syo _ Py Hw) as (v & Ev & Hv & Nv). rewrite Ev in Ep.
  destruct (old2new_spec n so _ Ps Hq) as (v' & Ev' & Hv' & Nv'). rewrite Ev' in Ep. injection Ep as <-. simpl.
  split; [exact Nv|]. split; [|exact Nv']. destruct b; simpl; auto. apply opp_opp.
Qed.

(** the runs go together *)
Theorem permuted_run n m so syo b tab tab' :
  basic_table n m tab -> Permutation so (seq 0 n) -> Permutation syo (seq 0 m) ->
  permuted n m so syo b tab tab' ->
  forall k c c', renames (fun i => nth i so 0) (fun j => nth j syo 0) b c c' ->
    st c < n -> (forall z, tp c z < m) ->
    match steps (table_of tab') k c, steps (table_of tab) k c' with
    | Some c1, Some c1' => renames (fun i => nth i so 0) (fun j => nth j syo 0) b c1 c1' /\ st c1 < n /\ (forall z, tp c1 z < m)
    | None, None => True
    | _, _ => False
    end.
Proof.
  intros B Ps Py Hp. pose proof (basic_in_range _ _ _ (permuted_basic _ _ _ _ _ _ _ B Ps Py Hp)) as Hrange.
  induction k as [|k IH]; simpl; intros c c' R Hs Ht; [auto|].
  pose proof (permuted_cells _ _ _ _ _ _ _ _ _ B Ps Py Hp Hs (Ht (hd c))) as Hc.
  pose proof (renames_read _ _ _ _ _ R) as Rr. unfold step. rewrite Rr. pose proof R as (Rs & _). rewrite Rs.
  destruct (table_of tab (nth (st c) so 0) (nth (tp c (hd c)) syo 0)) as [w d q|], (table_of tab' (st c) (tp c (hd c))) as [w' d' q'|] eqn:E';
    try contradiction; auto.
  destruct Hc as (<- & <- & <-). destruct (Hrange _ _ _ _ _ Hs (Ht (hd c)) E') as (Hw & Hq).
  apply IH; simpl; auto.
  - exact (renames_put _ _ _ _ _ w' d' q' R).
  - intros z. unfold put. destruct (Z.eqb z (hd c)); auto.
Qed.
