(** * Completeness with permutations of all states and symbols *)
Require Import ZArith List Lia Bool Arith.
From Verif Require Import Spec_TM Spec_Rename M_Turing_Machine M_IO M_Enum P_Macro P_Quint P_IO P_Tree P_Complete P_Unique.
Import ListNotations.
Open Scope nat_scope.

Definition full_order (n : nat) (so : list nat) : list nat :=
  so ++ filter (fun x => negb (existsb (Nat.eqb x) so)) (seq 0 n).

Lemma existsb_eqb x l : existsb (Nat.eqb x) l = true <-> In x l.
Proof.
  rewrite existsb_exists. split; [intros (y & H & E)|intros H; exists x]; [apply Nat.eqb_eq in E; congruence|].
  split; auto. apply Nat.eqb_refl.
Qed.

Lemma NoDup_app_intro {A} (x y : list A) : NoDup x -> NoDup y -> (forall a, In a x -> ~ In a y) -> NoDup (x ++ y).
Proof.
  induction 1 as [|a x Hn Hx IH]; simpl; intros Hy Hd; auto. constructor.
  - rewrite in_app_iff. intros [H|H]; auto. apply (Hd a); auto.
  - apply IH; auto.
Qed.

Lemma full_order_spec n so : NoDup so -> (forall x, In x so -> x < n) ->
  NoDup (full_order n so) /\ (forall x, In x (full_order n so) <-> x < n) /\ length (full_order n so) = n.
Proof.
  intros Hd Hb.
  assert (Hi : forall x, In x (full_order n so) <-> x < n).
  { intros x. unfold full_order. rewrite in_app_iff, filter_In, in_seq. split.
    - intros [H|[H _]]; [auto|lia].
    - intros H. destruct (existsb (Nat.eqb x) so) eqn:E; [left; now apply existsb_eqb|right]. split; [lia|reflexivity]. }
  assert (Hn : NoDup (full_order n so)).
  { apply NoDup_app_intro; auto; [apply NoDup_filter, seq_NoDup|]. intros x Hx H. apply filter_In in H.
    destruct H as (_ & H). apply existsb_eqb in Hx. rewrite Hx in H. discriminate. }
  split; auto. split; auto. apply Nat.le_antisymm.
  - rewrite <- (seq_length n 0) at 2. apply NoDup_incl_length; auto. intros x Hx. apply Hi in Hx. apply in_seq. lia.
  - rewrite <- (seq_length n 0) at 1. apply NoDup_incl_length; [apply seq_NoDup|]. intros x Hx. apply in_seq in Hx. apply Hi. lia.
Qed.

(** a permutation of 0 .. n-1 *)
Definition permutes (n : nat) (f : nat -> nat) : Prop := injective_below n f /\ forall i, i < n -> f i < n.

Lemma nth_permutes n l : NoDup l -> (forall x, In x l <-> x < n) -> length l = n -> permutes n (fun i => nth i l 0).
Proof.
  intros Hd Hi Hl. split.
  - intros x y Hx Hy E. apply (proj1 (NoDup_nth l 0) Hd); congruence.
  - intros i H. apply Hi. apply nth_In. lia.
Qed.

Section Full.
  Variables (n m : nat) (M : table) (allow first : bool).
  Hypothesis HM : in_range n m M.

  Theorem complete_gen root k c' :
    (allow = true \/ exists hi hj w d e, hi < n /\ hj < m /\ M hi hj = Stop w d e) ->
    blank_tm_enum n m first = Some root -> (exists so syo b, inv n m M so syo b root) ->
    steps M k initial = Some c' ->
    exists tab f g b, node n m allow first tab /\ permutes n f /\ permutes m g /\ f 0 = 0 /\ g 0 = 0 /\
      sub_renamed f g b (table_of tab) M /\
      (forall i c1, i <= k -> steps M i initial = Some c1 ->
         exists c, steps (table_of tab) i initial = Some c /\ renames f g b c c1) /\
      (forall w d e, M (st c') (tp c' (hd c')) = Stop w d e ->
         exists q s t, halts_at (table_of tab) initial (S k) q s false t /\ f q = st c' /\ g s = tp c' (hd c')).
  Proof.
    intros Ha Er Hroot Ek.
    destruct (follow n m M allow first HM root Ha Er Hroot k c' Ek) as (tab & so & syo & b & c & Hn & H & Ec & _).
    destruct (iv_so _ _ _ _ _ _ _ H) as (Nso & Lso & Zso & Bso). destruct (iv_syo _ _ _ _ _ _ _ H) as (Nsy & Lsy & Zsy & Bsy).
    destruct (full_order_spec n so Nso Bso) as (F1 & F2 & F3). destruct (full_order_spec m syo Nsy Bsy) as (G1 & G2 & G3).
    set (f := fun i => nth i (full_order n so) 0). set (g := fun j => nth j (full_order m syo) 0).
    assert (Ef : forall i, i < length so -> f i = nth i so 0) by (intros i Hi; unfold f, full_order; now apply app_nth1).
    assert (Eg : forall i, i < length syo -> g i = nth i syo 0) by (intros i Hi; unfold g, full_order; now apply app_nth1).
    assert (Sub : sub_renamed f g b (table_of tab) M).
    { intros i j w d q E. destruct (inv_go _ _ _ _ _ _ _ _ _ _ _ _ H E) as (_ & H1 & H2 & H3 & H4 & E').
      now rewrite !Ef, !Eg by auto. }
    assert (Zf : f 0 = 0) by (rewrite Ef; auto). assert (Zg : g 0 = 0) by (rewrite Eg; auto).
    exists tab, f, g, b. split; [exact Hn|]. split; [now apply nth_permutes|]. split; [now apply nth_permutes|].
    split; [exact Zf|]. split; [exact Zg|]. split; [exact Sub|]. split.
    - intros i c1 Hi E1. destruct (steps_le _ _ _ _ _ Hi Ec) as (x & Ex).
      destruct (renames_steps f g b _ _ Sub i initial initial x) as (y & Ey & Ry); auto; [now apply renames_initial|].
      exists x. split; auto. congruence.
    - intros w d e Es.
      destruct (renames_steps f g b _ _ Sub k initial initial c) as (y & Ey & Ry); auto; [now apply renames_initial|].
      assert (y = c') as -> by congruence. pose proof (renames_read _ _ _ _ _ Ry) as Rr. destruct Ry as (Rs & _).
      assert (Hu : table_of tab (st c) (tp c (hd c)) = Stop 1 R false).
      { destruct (table_of tab (st c) (tp c (hd c))) as [w0 d0 q0|w0 d0 e0] eqn:Et.
        - apply Sub in Et. rewrite <- Rs, <- Rr in Et. congruence.
        - rewrite table_of_cell in Et. destruct (cell tab (st c) (tp c (hd c))) as [t|] eqn:Ecell; [|congruence].
          destruct (iv_cell _ _ _ _ _ _ _ H _ _ _ Ecell) as [-> | (w1 & d1 & q1 & -> & _)]; simpl in Et; congruence. }
      exists (st c), (tp c (hd c)), (put (tp c) (hd c) 1). split; [|auto].
      exists k, c, 1, R. repeat split; auto.
  Qed.
End Full.
