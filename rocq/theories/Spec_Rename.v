(** * Renaming of states and symbols, and reflection of the tape *)
Require Import ZArith List Lia Bool Arith.
From Verif Require Import Spec_TM.
Import ListNotations.
Open Scope Z_scope.

Definition mirror_dir (b : bool) (d : dir) : dir := if b then opp d else d.
Definition mirror_pos (b : bool) (z : Z) : Z := if b then - z else z.

(** [renames f g b c c']: configuration [c] becomes [c'] when state [i] is called [f i], symbol
    [j] is called [g j] and, if [b], left and right are exchanged *)
Definition renames (f g : nat -> nat) (b : bool) (c c' : config) : Prop :=
  st c' = f (st c) /\ hd c' = mirror_pos b (hd c) /\ forall z, tp c' (mirror_pos b z) = g (tp c z).

(** every running cell of [T] is, renamed, a cell of [M] *)
Definition sub_renamed (f g : nat -> nat) (b : bool) (T M : table) : Prop :=
  forall i j w d q, T i j = Go w d q -> M (f i) (g j) = Go (g w) (mirror_dir b d) (f q).

Definition injective_below (k : nat) (f : nat -> nat) : Prop :=
  forall x y, (x < k)%nat -> (y < k)%nat -> f x = f y -> x = y.

(** a machine with [n] states and [m] symbols *)
Definition in_range (n m : nat) (M : table) : Prop :=
  forall i j w d q, (i < n)%nat -> (j < m)%nat -> M i j = Go w d q -> (w < m)%nat /\ (q < n)%nat.

(** ** Facts *)

Lemma mirror_invol b z : mirror_pos b (mirror_pos b z) = z.
Proof. destruct b; simpl; lia. Qed.
Lemma mirror_dir_invol b d : mirror_dir b (mirror_dir b d) = d.
Proof. destruct b, d; reflexivity. Qed.
Lemma mirror_dz b d : dz (mirror_dir b d) = mirror_pos b (dz d).
Proof. destruct b, d; reflexivity. Qed.
Lemma mirror_add b x y : mirror_pos b (x + y) = mirror_pos b x + mirror_pos b y.
Proof. destruct b; simpl; lia. Qed.
Lemma mirror_eqb b x y : (mirror_pos b x =? mirror_pos b y) = (x =? y).
Proof. destruct b; simpl; auto. destruct (Z.eqb_spec x y), (Z.eqb_spec (-x) (-y)); lia. Qed.

Lemma renames_read f g b c c' : renames f g b c c' -> tp c' (hd c') = g (tp c (hd c)).
Proof. intros (_ & -> & H). apply H. Qed.

Lemma renames_put f g b c c' w d q :
  renames f g b c c' ->
  renames f g b (Cfg q (hd c + dz d) (put (tp c) (hd c) w))
          (Cfg (f q) (hd c' + dz (mirror_dir b d)) (put (tp c') (hd c') (g w))).
Proof.
  intros (Hs & Hh & Ht). repeat split; simpl.
  - now rewrite mirror_add, mirror_dz, Hh.
  - intros z. unfold put. rewrite Hh, mirror_eqb. destruct (z =? hd c); auto.
Qed.

Lemma renames_step f g b (T M : table) c c' c1 :
  sub_renamed f g b T M -> renames f g b c c' -> step T c = Some c1 ->
  exists c1', step M c' = Some c1' /\ renames f g b c1 c1'.
Proof.
  intros HT H E. unfold step in *. destruct (T (st c) (tp c (hd c))) as [w d q|] eqn:Ec; [|discriminate].
  injection E as <-. rewrite (renames_read _ _ _ _ _ H). apply HT in Ec.
  destruct H as (Hs & H). rewrite Hs, Ec. eexists. split; [reflexivity|]. apply renames_put. split; auto.
Qed.

Lemma renames_steps f g b (T M : table) (HT : sub_renamed f g b T M) k : forall c c' c1,
  renames f g b c c' -> steps T k c = Some c1 -> exists c1', steps M k c' = Some c1' /\ renames f g b c1 c1'.
Proof.
  induction k as [|k IH]; simpl; intros c c' c1 H E.
  - injection E as <-. eauto.
  - destruct (step T c) as [d|] eqn:Ed; [|discriminate].
    destruct (renames_step _ _ _ _ _ _ _ _ HT H Ed) as (d' & -> & Hd). eauto.
Qed.

Lemma renames_initial f g b : f 0%nat = 0%nat -> g 0%nat = 0%nat -> renames f g b initial initial.
Proof.
  intros Hf Hg. split; [symmetry; exact Hf|]. split; [now destruct b|]. intros z. symmetry. exact Hg.
Qed.

(** states and symbols of a run stay in range *)
Lemma in_range_steps n m M (HM : in_range n m M) : forall k c c1,
  (st c < n)%nat -> (forall z, tp c z < m)%nat -> steps M k c = Some c1 ->
  (st c1 < n)%nat /\ (forall z, tp c1 z < m)%nat.
Proof.
  induction k as [|k IH]; simpl; intros c c1 Hs Ht E; [injection E as <-; auto|].
  unfold step in E. destruct (M (st c) (tp c (hd c))) as [w d q|] eqn:Em; [|discriminate].
  destruct (HM _ _ _ _ _ Hs (Ht _) Em) as (Hw & Hq). apply (IH _ _) in E; auto.
  simpl. intros z. unfold put. destruct (z =? hd c); auto.
Qed.

(** adding cells does not change what a run does before it stops *)
Definition extends (T T' : table) : Prop := forall i j w d q, T i j = Go w d q -> T' i j = Go w d q.

Lemma extends_steps T T' (H : extends T T') k : forall c c1, steps T k c = Some c1 -> steps T' k c = Some c1.
Proof.
  induction k as [|k IH]; simpl; intros c c1 E; auto. unfold step in *.
  destruct (T (st c) (tp c (hd c))) as [w d q|] eqn:Ec; [|discriminate]. rewrite (H _ _ _ _ _ Ec). auto.
Qed.
