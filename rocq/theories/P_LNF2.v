(** * When the lexical normal form does not depend on names *)
Require Import ZArith List Lia Bool Arith Permutation Ascii.
From Verif Require Import Spec_TM Spec_Rename M_Turing_Machine M_Direct M_IO M_Enum P_Macro P_Quint P_IO P_Tree P_Complete2 P_Permute P_LNF.
Import ListNotations.
Open Scope nat_scope.

(** ** composing orders *)

Definition compose (so so' : list nat) : list nat := map (fun i => nth i so 0) so'.

Lemma map_nth_seq (l : list nat) : map (fun i => nth i l 0) (seq 0 (length l)) = l.
Proof.
  induction l as [|a l IH]; simpl; auto. f_equal. rewrite <- seq_shift, map_map. exact IH.
Qed.

Lemma perm_length n (l : list nat) : Permutation l (seq 0 n) -> length l = n.
Proof. intros P. rewrite (Permutation_length P). apply seq_length. Qed.

Lemma compose_perm n so so' : Permutation so (seq 0 n) -> Permutation so' (seq 0 n) -> Permutation (compose so so') (seq 0 n).
Proof.
  intros P P'. unfold compose. rewrite P'. rewrite <- (perm_length n so P) at 1. now rewrite map_nth_seq.
Qed.

Lemma compose_nth so so' i : i < length so' -> nth i (compose so so') 0 = nth (nth i so' 0) so 0.
Proof.
  intros H. unfold compose. rewrite (nth_indep _ 0 (nth 0 so 0)) by now rewrite map_length.
  apply (map_nth (fun i => nth i so 0)).
Qed.

Lemma compose_surj n so p : Permutation so (seq 0 n) -> Permutation p (seq 0 n) ->
  exists p', Permutation p' (seq 0 n) /\ compose so p' = p.
Proof.
  intros Ps Pp. set (idx := fun x => match old2new so x with Some v => v | None => 0 end).
  assert (Hidx : forall x, x < n -> idx x < n /\ nth (idx x) so 0 = x).
  { intros x Hx. unfold idx. destruct (old2new_spec n so x Ps Hx) as (v & -> & Hv & E). auto. }
  assert (Hp : forall x, In x p -> x < n) by (intros x Hx; apply (Permutation_in _ Pp), in_seq in Hx; lia).
  exists (map idx p). split.
  - apply NoDup_Permutation_bis.
    + apply NoDup_map_inj.
      * intros x y Hx Hy E. rewrite <- (proj2 (Hidx x (Hp _ Hx))), <- (proj2 (Hidx y (Hp _ Hy))). congruence.
      * eapply Permutation_NoDup; [symmetry; exact Pp|apply seq_NoDup].
    + rewrite map_length, (perm_length n p Pp), seq_length. lia.
    + intros x Hx. apply in_map_iff in Hx. destruct Hx as (y & <- & Hy). apply in_seq. split; [lia|]. simpl. apply Hidx. auto.
  - unfold compose. rewrite map_map. rewrite <- (map_id p) at 2. apply map_ext_in. intros x Hx. apply Hidx. auto.
Qed.

Lemma old2new_compose n so so' x : Permutation so (seq 0 n) -> Permutation so' (seq 0 n) -> x < n ->
  old2new (compose so so') (nth x so 0) = old2new so' x.
Proof.
  intros P P' Hx. destruct (order_permutes n so P) as (Hi & Hb). destruct (order_permutes n so' P') as (Hi' & Hb').
  destruct (old2new_spec n so' x P' Hx) as (v & -> & Hv & Ev).
  destruct (old2new_spec n (compose so so') (nth x so 0) (compose_perm _ _ _ P P') (Hb _ Hx)) as (u & -> & Hu & Eu).
  f_equal. rewrite compose_nth in Eu by (rewrite (perm_length n so' P'); exact Hu).
  apply Hi'; auto. rewrite Ev. apply Hi; auto.
Qed.

(** ** two tables that differ in names only *)

(** [tab'] is [tab] with state [i] called so[i], symbol [j] called syo[j] and, if [b], mirrored *)
Definition same_up_to_names (n m : nat) (so syo : list nat) (b : bool) (T T' : table) : Prop :=
  forall i j, i < n -> j < m ->
  match T' i j, T (nth i so 0) (nth j syo 0) with
  | Go w' d' q', Go w d q => w = nth w' syo 0 /\ d = mirror_dir b d' /\ q = nth q' so 0
  | Stop _ _ e', Stop _ _ e => e = e'
  | _, _ => False
  end.

Section Canon.
  Variables (n m : nat) (tab tab' : ttable) (so syo : list nat) (b : bool).
  Hypothesis Hn : 0 < n. Hypothesis Hm : 0 < m.
  Hypothesis Htab : std_table n m tab. Hypothesis Htab' : std_table n m tab'.
  Hypothesis Ps : Permutation so (seq 0 n). Hypothesis Py : Permutation syo (seq 0 m).
  Hypothesis Hzero : nth 0 syo 0 = 0.
  Hypothesis Hsame : same_up_to_names n m so syo b (table_of tab) (table_of tab').
  (** every state has a running transition on the blank *)
  Hypothesis Hblank : forall i, i < n -> exists w d q, table_of tab i 0 = Go w d q.

  Lemma trans_same i j t t' so' syo' sw : Permutation so' (seq 0 n) -> Permutation syo' (seq 0 m) ->
    i < n -> j < m -> cell tab' i j = Some t' -> cell tab (nth i so 0) (nth j syo 0) = Some t ->
    permute_trans so' syo' sw t' = permute_trans (compose so so') (compose syo syo') (xorb sw b) t.
  Proof.
    intros Ps' Py' Hi Hj Et' Et. specialize (Hsame i j Hi Hj). rewrite !table_of_cell, Et, Et' in Hsame.
    pose proof (proj2 Htab _ _ _ Et) as S1. pose proof (proj2 Htab' _ _ _ Et') as S2.
    destruct S2 as [|w' d' Hw'|w' d' q' Hw' Hq'], S1 as [|w d Hw|w d q Hw Hq]; simpl in Hsame; try contradiction; try congruence; try reflexivity.
    destruct Hsame as (-> & -> & ->). unfold permute_trans. simpl.
    rewrite (old2new_compose m), (old2new_compose n) by auto.
    destruct (old2new syo' w'), (old2new so' q'); auto. do 2 f_equal. destruct sw, b, d'; reflexivity.
  Qed.

  Lemma first_dir i t t' : i < n -> cell tab' i 0 = Some t' -> cell tab (nth i so 0) 0 = Some t ->
    dir_eqb (t_dir t) R = xorb (dir_eqb (t_dir t') R) b.
  Proof.
    intros Hi Et' Et. pose proof (Hsame i 0 Hi Hm) as H. rewrite Hzero in H.
    destruct (Hblank (nth i so 0)) as (w & d & q & Eg). { now apply (order_permutes n so Ps). }
    rewrite !table_of_cell, Et, Et' in H. rewrite table_of_cell, Et in Eg.
    pose proof (proj2 Htab _ _ _ Et) as S1. pose proof (proj2 Htab' _ _ _ Et') as S2.
    destruct S2, S1; simpl in *; try contradiction; try discriminate. destruct H as (_ & -> & _). destruct b, d0; reflexivity.
  Qed.

  Lemma candidate_same so' syo' : Permutation so' (seq 0 n) -> Permutation syo' (seq 0 m) ->
    exists p p', lnf_permute tab' so' syo' = Some p' /\ lnf_permute tab (compose so so') (compose syo syo') = Some p /\ lt_tab p = lt_tab p'.
  Proof.
    intros Ps' Py'. pose proof (std_basic _ _ _ Htab) as B. pose proof (std_basic _ _ _ Htab') as B'.
    pose proof (compose_perm n so so' Ps Ps') as Pc. pose proof (compose_perm m syo syo' Py Py') as Pyc.
    destruct (lnf_permute_ok n m tab' so' syo' Hn Hm B' Ps' Py') as (p' & b' & t' & E' & Et' & Eb' & _ & (Hr' & Hp') & _).
    destruct (lnf_permute_ok n m tab _ _ Hn Hm B Pc Pyc) as (p & b0 & t & E & Et & Eb & _ & (Hr & Hp) & _).
    exists p, p'. split; auto. split; auto.
    assert (L1 : length so' = n) by now apply perm_length. assert (L2 : length syo' = m) by now apply perm_length.
    rewrite compose_nth in Et by lia.
    assert (H0 : nth 0 so' 0 < n) by (now apply (order_permutes n so' Ps')).
    assert (Ebb : b0 = xorb b' b) by (subst b0 b'; eapply first_dir; eauto).
    apply (rect_ext n m); auto. intros i j Hi Hj.
    destruct (Hp i j Hi Hj) as (t1 & t2 & E1 & X & E2). destruct (Hp' i j Hi Hj) as (t1' & t2' & E1' & X' & E2').
    unfold ttable, trans_row in *. rewrite E2, E2'. rewrite <- X, <- X', Ebb. symmetry.
    rewrite !compose_nth in E1 by lia.
    eapply trans_same with (i := nth i so' 0) (j := nth j syo' 0); eauto.
    - now apply (order_permutes n so' Ps').
    - now apply (order_permutes m syo' Py').
  Qed.

  (** the texts of the candidates are the same *)
  Lemma texts_same s :
    (exists so' syo' p, Permutation so' (seq 0 n) /\ Permutation syo' (seq 0 m) /\ lnf_permute tab' so' syo' = Some p /\ ttable_str (lt_tab p) n m = Some s) <->
    (exists so' syo' p, Permutation so' (seq 0 n) /\ Permutation syo' (seq 0 m) /\ lnf_permute tab so' syo' = Some p /\ ttable_str (lt_tab p) n m = Some s).
  Proof.
    split; intros (so' & syo' & p & P1 & P2 & E & Es).
    - destruct (candidate_same so' syo' P1 P2) as (p1 & p1' & E1' & E1 & Et). assert (p1' = p) as -> by congruence.
      exists (compose so so'), (compose syo syo'), p1. split; [now apply compose_perm|]. split; [now apply compose_perm|]. split; auto. now rewrite Et.
    - destruct (compose_surj n so so' Ps P1) as (so1 & P1' & <-). destruct (compose_surj m syo syo' Py P2) as (syo1 & P2' & <-).
      destruct (candidate_same so1 syo1 P1' P2') as (p1 & p1' & E1' & E1 & Et). assert (p1 = p) as -> by congruence.
      exists so1, syo1, p1'. repeat split; auto. now rewrite <- Et.
  Qed.
End Canon.

(** ** the given table is never better than the candidates *)

Definition halts_1RZ (tab : ttable) : Prop :=
  forall i j w d, table_of tab i j = Stop w d true -> w = 1 /\ d = R.

Lemma old2new_id n x : x < n -> old2new (seq 0 n) x = Some x.
Proof.
  intros Hx. destruct (old2new_spec n (seq 0 n) x (Permutation_refl _) Hx) as (v & -> & Hv & E).
  rewrite seq_nth in E by exact Hv. now subst.
Qed.

Lemma given_not_better n m tab s : 0 < n -> 0 < m -> n < 25 -> m < 10 -> std_table n m tab -> halts_1RZ tab ->
  (exists w d q, table_of tab 0 0 = Go w d q) -> ttable_str tab n m = Some s ->
  exists so syo p s', Permutation so (seq 0 n) /\ Permutation syo (seq 0 m) /\ lnf_permute tab so syo = Some p /\
    ttable_str (lt_tab p) n m = Some s' /\ (s' = s \/ str_ltb s' s = true).
Proof.
  intros Hn Hm Hn' Hm' Hstd Hh (w & d & q & E00) Es. pose proof (std_basic _ _ _ Hstd) as B.
  destruct (lnf_permute_ok n m tab (seq 0 n) (seq 0 m) Hn Hm B (Permutation_refl _) (Permutation_refl _))
    as (p & b & t & E & Et & Eb & _ & Hp & _).
  destruct (permuted_text _ _ _ _ _ _ _ B (Permutation_refl _) (Permutation_refl _) Hp) as (s' & Es').
  exists (seq 0 n), (seq 0 m), p, s'. split; auto. split; auto. split; auto. split; auto.
  rewrite seq_nth in Et by exact Hn. simpl in Et. destruct Hp as (Hr & Hp).
  assert (Hcell : forall i j t1 t2, cell tab i j = Some t1 -> cell (lt_tab p) i j = Some t2 -> permute_trans (seq 0 n) (seq 0 m) b t1 = Some t2).
  { intros i j t1 t2 E1 E2. destruct (cell_bounds _ _ _ _ _ _ Hr E2) as (Hi & Hj). destruct (Hp i j Hi Hj) as (u & u' & Eu & Ep & Eu').
    rewrite !seq_nth in Eu by auto. simpl in Eu. congruence. }
  rewrite table_of_cell, Et in E00. destruct b eqn:Ebb.
  - (* mirrored: the first cell moves left now *)
    right. destruct (Hp 0 0 Hn Hm) as (u & u' & Eu & Ep & Eu'). rewrite !seq_nth in Eu by auto. simpl in Eu.
    assert (u = t) as -> by congruence. pose proof (proj2 Hstd _ _ _ Et) as Hst.
    destruct Hst as [|w0 d0 Hw0|w0 d0 q0 Hw0 Hq0]; try discriminate. simpl in Eb. destruct d0; [discriminate|].
    unfold permute_trans in Ep. simpl in Ep. rewrite !old2new_id in Ep by auto. injection Ep as <-.
    assert (T1 : to_ttable_str (Trans RUNNING [] w0 (SRun q0) R 1 [(0, 0)]) = Some [digit w0; dir_char R; upper q0]).
    { unfold to_ttable_str. simpl. destruct (Nat.ltb_spec w0 10); [|lia]. destruct (Nat.ltb_spec q0 26); [|lia]. reflexivity. }
    assert (T2 : to_ttable_str (Trans RUNNING [] w0 (SRun q0) L 1 []) = Some [digit w0; dir_char L; upper q0]).
    { unfold to_ttable_str. simpl. destruct (Nat.ltb_spec w0 10); [|lia]. destruct (Nat.ltb_spec q0 26); [|lia]. reflexivity. }
    destruct (ttable_str_first n m tab s _ _ _ _ (proj1 Hstd) Hn Hm Hn' Hm' Et T1 Es) as (r1 & ->).
    destruct (ttable_str_first n m (lt_tab p) s' _ _ _ _ Hr Hn Hm Hn' Hm' Eu' T2 Es') as (r2 & ->).
    cbn [str_ltb]. rewrite Ascii.eqb_refl. reflexivity.
  - left. assert (X : ttable_str (lt_tab p) n m = ttable_str tab n m); [|congruence].
    apply ttable_str_ext; auto; [apply Hstd|]. intros i j t2 t1 E2 E1. specialize (Hcell _ _ _ _ E1 E2).
    pose proof (proj2 Hstd _ _ _ E1) as Hst. destruct Hst as [|w0 d0 Hw0|w0 d0 q0 Hw0 Hq0]; unfold permute_trans in Hcell; simpl in Hcell.
    + injection Hcell as <-. reflexivity.
    + injection Hcell as <-. destruct (Hh i j w0 d0) as (-> & ->); [now rewrite table_of_cell, E1|]. reflexivity.
    + rewrite !old2new_id in Hcell by auto. injection Hcell as <-. reflexivity.
Qed.

Theorem canonical n m tab tab' so syo b :
  0 < n -> 0 < m -> n < 25 -> m < 10 -> std_table n m tab -> std_table n m tab' ->
  Permutation so (seq 0 n) -> Permutation syo (seq 0 m) -> nth 0 syo 0 = 0 ->
  same_up_to_names n m so syo b (table_of tab) (table_of tab') ->
  (forall i, i < n -> exists w d q, table_of tab i 0 = Go w d q) ->
  halts_1RZ tab -> halts_1RZ tab' ->
  exists p p' s, brute_lnf tab n m = Some p /\ brute_lnf tab' n m = Some p' /\
    ttable_str (lt_tab p) n m = Some s /\ ttable_str (lt_tab p') n m = Some s.
Proof.
  intros Hn Hm Hn' Hm' Hs Hs' Ps Py Hz Hsame Hblank Hh Hh'.
  assert (G : forall u, std_table n m u -> halts_1RZ u -> (exists w d q, table_of u 0 0 = Go w d q) ->
    exists p s, brute_lnf u n m = Some p /\ ttable_str (lt_tab p) n m = Some s /\
      (exists so' syo' p, Permutation so' (seq 0 n) /\ Permutation syo' (seq 0 m) /\ lnf_permute u so' syo' = Some p /\ ttable_str (lt_tab p) n m = Some s) /\
      (forall so syo p' s', Permutation so (seq 0 n) -> Permutation syo (seq 0 m) ->
       lnf_permute u so syo = Some p' -> ttable_str (lt_tab p') n m = Some s' -> str_ltb s' s = false)).
  { intros u Hu Hhu H0. destruct (brute_lnf_ok n m u Hn Hm Hu) as (p & s & s0 & E & Es & E0 & Hp & Hle & Hmin).
    exists p, s. split; auto. split; auto. split; auto. destruct Hp as [-> |(so' & syo' & P1 & P2 & Ep)]; [|exists so', syo', p; auto].
    simpl in Es. destruct (given_not_better n m u s Hn Hm Hn' Hm' Hu Hhu H0 Es) as (so' & syo' & p & s' & P1 & P2 & Ep & Es' & [-> |Hlt]).
    - exists so', syo', p. auto.
    - rewrite (Hmin _ _ _ _ P1 P2 Ep Es') in Hlt. discriminate. }
  destruct (G tab Hs Hh (Hblank 0 Hn)) as (p & s & E & Es & Hc & Hmin).
  assert (H0' : exists w d q, table_of tab' 0 0 = Go w d q).
  { pose proof (Hsame 0 0 Hn Hm) as X. rewrite Hz in X. destruct (Hblank (nth 0 so 0)) as (w & d & q & Eg).
    { now apply (order_permutes n so Ps). } rewrite Eg in X. destruct (table_of tab' 0 0); [eauto|contradiction]. }
  destruct (G tab' Hs' Hh' H0') as (p' & s' & E' & Es' & Hc' & Hmin').
  exists p, p', s. split; auto. split; auto. split; auto. rewrite Es'. f_equal. apply str_ltb_total.
  - apply (proj1 (texts_same n m tab tab' so syo b Hn Hm Hs Hs' Ps Py Hz Hsame Hblank s')) in Hc'.
    destruct Hc' as (a & c & x & P1 & P2 & Ex & Esx). eapply Hmin; eauto.
  - apply (proj2 (texts_same n m tab tab' so syo b Hn Hm Hs Hs' Ps Py Hz Hsame Hblank s)) in Hc.
    destruct Hc as (a & c & x & P1 & P2 & Ex & Esx). eapply Hmin'; eauto.
Qed.
