(** * Lin recurrence: the test is exact, Brent's search is complete *)
Require Import ZArith List Lia Bool Arith.
From Verif Require Import Spec_TM M_Turing_Machine M_Direct P_Stream P_SimLimited P_Macro P_Direct P_Quint M_LinRecur.
Import ListNotations.
Open Scope Z_scope.

(** ** Specification: the sequence of (state, symbol read) is periodic from step [s] on *)
Definition lin_recurrent (T : table) (s p : nat) : Prop :=
  (0 < p)%nat /\
  forall i, exists c d, steps T (s + i) initial = Some c /\ steps T (s + i + p) initial = Some d /\
    st d = st c /\ tp d (hd d) = tp c (hd c).

Section Trace.
  Variable T : table.
  Notation run n := (steps T n initial).

  Lemma run_le n m c : (m <= n)%nat -> run n = Some c -> exists d, run m = Some d.
  Proof. intros. eapply steps_le; eassumption. Qed.

  Lemma run_S n c d : run n = Some c -> run (S n) = Some d -> step T c = Some d.
  Proof. intros A B. rewrite steps_S, A in B. exact B. Qed.

  (** heads visited in steps [s .. s+n] lie in [l, r], and both ends are visited *)
  Definition span (s n : nat) (l r : Z) : Prop :=
    (forall i c, (i <= n)%nat -> run (s + i) = Some c -> l <= hd c <= r) /\
    (exists i c, (i <= n)%nat /\ run (s + i) = Some c /\ hd c = l) /\
    (exists i c, (i <= n)%nat /\ run (s + i) = Some c /\ hd c = r).

  Definition region (o l r z : Z) : Prop :=
    (0 < o -> l <= z) /\ (o < 0 -> z <= r) /\ (o = 0 -> l <= z <= r).

  Definition chk (c d : config) (l r : Z) : Prop :=
    st d = st c /\ forall z, region (hd d - hd c) l r z -> tp c z = tp d (z + (hd d - hd c)).

  Lemma region_in o l r z : l <= z <= r -> region o l r z.
  Proof. intros H. unfold region. repeat split; intros; lia. Qed.
  Lemma region_shift o l r z : region o l r z -> region o l r (z + o).
  Proof. unfold region. intros (A & B & C). repeat split; intros; lia. Qed.

  Lemma step_go c d : step T c = Some d ->
    exists w k q, T (st c) (tp c (hd c)) = Go w k q /\ d = Cfg q (hd c + dz k) (put (tp c) (hd c) w).
  Proof.
    unfold step. destruct (T (st c) (tp c (hd c))) as [w k q|] eqn:E; [|discriminate].
    intros H. exists w, k, q. split; [reflexivity|congruence].
  Qed.

  (** what stays true while both runs proceed in parallel *)
  Definition par (s p : nat) (o l r : Z) (i : nat) : Prop :=
    exists c d, run (s + i) = Some c /\ run (s + i + p) = Some d /\ st d = st c /\
      hd d = hd c + o /\ region o l r (hd c) /\
      forall z, region o l r z -> tp c z = tp d (z + o).

  Lemma chk_par s p c d l r : (0 < p)%nat -> run s = Some c -> run (s + p) = Some d ->
    span s p l r -> chk c d l r -> forall i, par s p (hd d - hd c) l r i.
  Proof.
    intros P Rc Rd SP (E & A). set (o := hd d - hd c) in *.
    induction i as [i IH] using lt_wf_ind. destruct i as [|i].
    - exists c, d. rewrite Nat.add_0_r. split; [exact Rc|]. split; [exact Rd|]. split; [exact E|].
      split; [unfold o; lia|]. split; [|exact A]. apply region_in.
      apply (proj1 SP 0%nat c); [lia|]. rewrite Nat.add_0_r. exact Rc.
    - destruct (IH i ltac:(lia)) as (c1 & d1 & R1 & R2 & S1 & H1 & G1 & A1).
      assert (X : exists c2, run (s + S i) = Some c2 /\ region o l r (hd c2)).
      { destruct (Nat.le_gt_cases (S i) p) as [L|L].
        - destruct (run_le (s + p) (s + S i) d ltac:(lia) Rd) as [c2 R]. exists c2. split; [exact R|].
          apply region_in. apply (proj1 SP (S i) c2 L R).
        - destruct (IH (S i - p)%nat ltac:(lia)) as (c3 & d3 & R3 & R4 & S3 & H3 & G3 & A3).
          exists d3. replace (s + S i)%nat with (s + (S i - p) + p)%nat by lia. split; [exact R4|].
          rewrite H3. apply region_shift, G3. }
      destruct X as (c2 & R3 & G3).
      assert (Q1 : step T c1 = Some c2).
      { apply (run_S (s + i)); [exact R1|]. replace (S (s + i)) with (s + S i)%nat by lia. exact R3. }
      destruct (step_go _ _ Q1) as (w & k & q & TQ & ->). cbn [hd] in G3.
      assert (RD : tp d1 (hd d1) = tp c1 (hd c1)) by (rewrite H1; symmetry; apply A1, G1).
      exists (Cfg q (hd c1 + dz k) (put (tp c1) (hd c1) w)), (Cfg q (hd d1 + dz k) (put (tp d1) (hd d1) w)).
      split; [exact R3|]. split.
      { replace (s + S i + p)%nat with (S (s + i + p)) by lia. rewrite steps_S, R2. unfold step.
        rewrite S1, RD, TQ. reflexivity. }
      split; [reflexivity|]. cbn [hd tp]. split; [lia|]. split; [exact G3|].
      intros z Z. unfold put.
      destruct (Z.eqb_spec z (hd c1)), (Z.eqb_spec (z + o) (hd d1)); try lia. apply A1, Z.
  Qed.

  Lemma chk_lr s p c d l r : (0 < p)%nat -> run s = Some c -> run (s + p) = Some d ->
    span s p l r -> chk c d l r -> lin_recurrent T s p.
  Proof.
    intros P Rc Rd SP K. split; [exact P|]. intros i.
    destruct (chk_par s p c d l r P Rc Rd SP K i) as (c1 & d1 & R1 & R2 & S1 & H1 & G1 & A1).
    exists c1, d1. split; [exact R1|]. split; [exact R2|]. split; [exact S1|].
    rewrite H1. symmetry. apply A1, G1.
  Qed.

  (** periodic reading means parallel heads *)
  Lemma lr_heads s p c d : lin_recurrent T s p -> run s = Some c -> run (s + p) = Some d ->
    forall i, exists c' d', run (s + i) = Some c' /\ run (s + i + p) = Some d' /\ st d' = st c' /\
      tp d' (hd d') = tp c' (hd c') /\ hd d' = hd c' + (hd d - hd c).
  Proof.
    intros (P & H) Rc Rd. induction i as [|i IH].
    - destruct (H 0%nat) as (c1 & d1 & R1 & R2 & S1 & T1). rewrite Nat.add_0_r in *.
      exists c1, d1. repeat split; auto.
      assert (c1 = c) as -> by congruence. assert (d1 = d) as -> by congruence. lia.
    - destruct IH as (c1 & d1 & R1 & R2 & S1 & T1 & H1).
      destruct (H (S i)) as (c2 & d2 & R3 & R4 & S2 & T2).
      exists c2, d2. split; [exact R3|]. split; [exact R4|]. split; [exact S2|]. split; [exact T2|].
      assert (Q1 : step T c1 = Some c2).
      { apply (run_S (s + i)); [exact R1|]. replace (S (s + i)) with (s + S i)%nat by lia. exact R3. }
      assert (Q2 : step T d1 = Some d2).
      { apply (run_S (s + i + p)); [exact R2|]. replace (S (s + i + p)) with (s + S i + p)%nat by lia. exact R4. }
      destruct (step_go _ _ Q1) as (w & k & q & TQ & ->).
      unfold step in Q2. rewrite S1, T1, TQ in Q2.
      assert (d2 = Cfg q (hd d1 + dz k) (put (tp d1) (hd d1) w)) as -> by congruence. cbn [hd]. lia.
  Qed.

  (** the head passes every cell between two of its positions *)
  Lemma passes s n : forall c d z, run s = Some c -> run (s + n) = Some d ->
    (hd c <= z <= hd d \/ hd d <= z <= hd c) -> exists i e, (i <= n)%nat /\ run (s + i) = Some e /\ hd e = z.
  Proof.
    induction n as [|n IH]; intros c d z Rc Rd B.
    - rewrite Nat.add_0_r in Rd. assert (d = c) as -> by congruence.
      exists 0%nat, c. rewrite Nat.add_0_r. repeat split; auto; lia.
    - destruct (run_le (s + S n) (s + n) d ltac:(lia) Rd) as [e Re].
      assert (Q : step T e = Some d).
      { apply (run_S (s + n)); [exact Re|]. replace (S (s + n)) with (s + S n)%nat by lia. exact Rd. }
      destruct (step_go _ _ Q) as (w & k & q & _ & ->). cbn [hd] in B.
      destruct (Z.eq_dec z (hd e + dz k)) as [->|N].
      + exists (S n), (Cfg q (hd e + dz k) (put (tp e) (hd e) w)). split; [lia|]. split; [exact Rd|reflexivity].
      + destruct (IH c e z Rc Re) as (i & f & L & Rf & Hf); [destruct k; cbn [dz] in *; lia|].
        exists i, f. split; [lia|]. auto.
  Qed.

  (** cells not visited keep their content *)
  Lemma unvisited s n : forall c d z, run s = Some c -> run (s + n) = Some d ->
    (forall i e, (i < n)%nat -> run (s + i) = Some e -> hd e <> z) -> tp d z = tp c z.
  Proof.
    induction n as [|n IH]; intros c d z Rc Rd B.
    - rewrite Nat.add_0_r in Rd. congruence.
    - destruct (run_le (s + S n) (s + n) d ltac:(lia) Rd) as [e Re].
      assert (Q : step T e = Some d).
      { apply (run_S (s + n)); [exact Re|]. replace (S (s + n)) with (s + S n)%nat by lia. exact Rd. }
      destruct (step_go _ _ Q) as (w & k & q & _ & ->). cbn [tp].
      rewrite put_other; [|intros ->; exact (B n e ltac:(lia) Re eq_refl)].
      apply (IH c e z Rc Re). intros i f L. apply B. lia.
  Qed.

  Lemma first_visit s n : forall z e, run (s + n) = Some e -> hd e = z ->
    exists i f, (i <= n)%nat /\ run (s + i) = Some f /\ hd f = z /\
      forall j g, (j < i)%nat -> run (s + j) = Some g -> hd g <> z.
  Proof.
    induction n as [n IH] using lt_wf_ind. intros z e Re He.
    assert (D : (exists j g, (j < n)%nat /\ run (s + j) = Some g /\ hd g = z) \/
                (forall j g, (j < n)%nat -> run (s + j) = Some g -> hd g <> z)).
    { clear IH Re. induction n as [|n IHn]; [right; intros; lia|].
      destruct IHn as [(j & g & L & R & H)|N]; [left; exists j, g; split; [lia|auto]|].
      destruct (run (s + n)) as [g|] eqn:R.
      - destruct (Z.eq_dec (hd g) z) as [E|NE]; [left; exists n, g; repeat split; auto; lia|].
        right. intros j g' L R'. destruct (Nat.eq_dec j n) as [->|]; [congruence|]. apply (N j g'); [lia|exact R'].
      - right. intros j g' L R'. destruct (Nat.eq_dec j n) as [->|]; [congruence|]. apply (N j g'); [lia|exact R']. }
    destruct D as [(j & g & L & R & H)|N].
    - destruct (IH j L z g R H) as (i & f & A & B & C & D). exists i, f. split; [lia|]. auto.
    - exists n, e. auto.
  Qed.

  Lemma lr_far s p c d : lin_recurrent T s p -> run s = Some c -> run (s + p) = Some d ->
    forall k : nat, exists e, run (s + k * p) = Some e /\ hd e = hd c + Z.of_nat k * (hd d - hd c).
  Proof.
    intros H Rc Rd. induction k as [|k (e & Re & He)].
    - exists c. cbn [Nat.mul]. rewrite Nat.add_0_r. split; [exact Rc|lia].
    - destruct (lr_heads s p c d H Rc Rd (k * p)) as (c1 & d1 & R1 & R2 & _ & _ & H1).
      exists d1. replace (s + S k * p)%nat with (s + k * p + p)%nat by lia. split; [exact R2|].
      assert (c1 = e) as -> by congruence. rewrite H1, He. lia.
  Qed.

  Lemma lr_chk s p c d l r : lin_recurrent T s p -> run s = Some c -> run (s + p) = Some d ->
    span s p l r -> chk c d l r.
  Proof.
    intros H Rc Rd (SP & (il & cl & Il & Rl & Hl) & (ir & cr & Ir & Rr & Hr)).
    destruct (lr_heads s p c d H Rc Rd 0%nat) as (c0 & d0 & R0 & R0' & S0 & _ & _).
    rewrite Nat.add_0_r in *. assert (c0 = c) as -> by congruence. assert (d0 = d) as -> by congruence.
    split; [exact S0|]. set (o := hd d - hd c). intros z (G1 & G2 & G3).
    pose proof (SP 0%nat c ltac:(lia) ltac:(rewrite Nat.add_0_r; exact Rc)) as Bc.
    assert (V : exists n e, run (s + n) = Some e /\ hd e = z).
    { destruct (Z_le_gt_dec z r) as [Lr|Lr]; [destruct (Z_le_gt_dec l z) as [Ll|Ll]|].
      - destruct (Z_le_gt_dec z (hd c)) as [Lc|Lc].
        + destruct (passes s il c cl z Rc Rl ltac:(lia)) as (i & e & _ & A & B). eauto.
        + destruct (passes s ir c cr z Rc Rr ltac:(lia)) as (i & e & _ & A & B). eauto.
      - assert (o < 0) by lia. destruct (lr_far s p c d H Rc Rd (Z.to_nat (hd c - z))) as (e & Re & He).
        destruct (passes s _ c e z Rc Re) as (i & f & _ & A & B); [right; fold o in He; nia|eauto].
      - assert (0 < o) by lia. destruct (lr_far s p c d H Rc Rd (Z.to_nat (z - hd c))) as (e & Re & He).
        destruct (passes s _ c e z Rc Re) as (i & f & _ & A & B); [left; fold o in He; nia|eauto]. }
    destruct V as (n & e & Re & He).
    destruct (first_visit s n z e Re He) as (i & f & _ & Rf & Hf & FV).
    destruct (lr_heads s p c d H Rc Rd i) as (c1 & d1 & R1 & R2 & S1 & T1 & H1).
    assert (c1 = f) as -> by congruence. fold o in H1.
    rewrite <- (unvisited s i c f z Rc Rf FV).
    replace (s + i + p)%nat with (s + p + i)%nat in R2 by lia.
    rewrite <- (unvisited (s + p) i d d1 (z + o) Rd R2).
    - rewrite <- Hf at 1. rewrite <- T1, H1, Hf. reflexivity.
    - intros j g L Rg Eg. destruct (lr_heads s p c d H Rc Rd j) as (c3 & d3 & R3 & R4 & _ & _ & H3).
      replace (s + j + p)%nat with (s + p + j)%nat in R4 by lia.
      assert (d3 = g) as -> by congruence. apply (FV j c3 L R3). fold o in H3. lia.
  Qed.

  Lemma lr_later s s' p : (s <= s')%nat -> lin_recurrent T s p -> lin_recurrent T s' p.
  Proof.
    intros L (P & H). split; [exact P|]. intros i. destruct (H (s' - s + i)%nat) as (c & d & A & B & C).
    exists c, d. replace (s' + i)%nat with (s + (s' - s + i))%nat by lia. auto.
  Qed.

  Lemma lr_nonhalting s p : lin_recurrent T s p -> nonhalting T initial.
  Proof.
    intros (P & H). apply nonhalting_unbounded. intros n.
    destruct (H n) as (c & d & A & _). exists (s + n)%nat, c. split; [lia|exact A].
  Qed.

  (** a period known later holds from the start of any period *)
  Lemma lr_period_from s p s' p' : lin_recurrent T s p -> lin_recurrent T s' p' -> lin_recurrent T s p'.
  Proof.
    intros H H'. assert (P : (0 < p)%nat) by apply H. split; [apply H'|]. intros i.
    assert (SH : forall k j, exists c d, run (s + j) = Some c /\ run (s + j + k * p) = Some d /\
       st d = st c /\ tp d (hd d) = tp c (hd c)).
    { induction k as [|k IH]; intros j.
      - destruct (proj2 H j) as (c & d & A & _). exists c, c. cbn [Nat.mul]. rewrite Nat.add_0_r. auto.
      - destruct (IH j) as (c & d & A & B & C & D).
        destruct (proj2 H (j + k * p)%nat) as (c' & d' & A' & B' & C' & D').
        replace (s + (j + k * p))%nat with (s + j + k * p)%nat in * by lia.
        assert (c' = d) as -> by congruence.
        exists c, d'. split; [exact A|]. replace (s + j + S k * p)%nat with (s + j + k * p + p)%nat by lia.
        split; [exact B'|]. split; congruence. }
    destruct (SH s' i) as (c1 & d1 & A1 & B1 & C1 & D1).
    destruct (SH s' (i + p')%nat) as (c2 & d2 & A2 & B2 & C2 & D2).
    replace (s + (i + p'))%nat with (s + i + p')%nat in * by lia.
    exists c1, c2. split; [exact A1|]. split; [exact A2|].
    assert (L : (s' <= s + i + s' * p)%nat) by nia.
    destruct (proj2 (lr_later s' _ p' L H') 0%nat) as (c3 & d3 & A3 & B3 & C3 & D3).
    rewrite Nat.add_0_r in *.
    assert (c3 = d1) as -> by congruence.
    replace (s + i + p' + s' * p)%nat with (s + i + s' * p + p')%nat in B2 by lia.
    assert (d3 = d2) as -> by congruence. split; congruence.
  Qed.
End Trace.

(** ** Tape comparisons *)
Lemma dt_at_out t z : ~ (dt_leftmost t <= z <= dt_rightmost t) -> dt_at t z = dt_init t.
Proof.
  intros H. unfold dt_at. rewrite in_range_false; [reflexivity|].
  unfold dt_leftmost, dt_rightmost, dt_index2pos, dt_pos2index in *. lia.
Qed.
Lemma in_range_spec t z : in_range t z = true <-> dt_leftmost t <= z <= dt_rightmost t.
Proof. unfold in_range. rewrite andb_true_iff, !Z.leb_le. tauto. Qed.
Lemma in_range_spec_false t z : in_range t z = false <-> ~ (dt_leftmost t <= z <= dt_rightmost t).
Proof. rewrite <- in_range_spec. destruct (in_range t z); split; congruence. Qed.

Lemma half_right t1 t2 : dt_init t1 = dt_init t2 -> forall fuel p1 p2,
  (Z.to_nat (Z.max (dt_rightmost t1 - p1) (dt_rightmost t2 - p2) + 1) <= fuel)%nat ->
  dt_leftmost t2 <= p2 -> dt_leftmost t1 - p1 <= dt_rightmost t2 + 1 - p2 ->
  exists b, half_loop fuel t1 p1 t2 p2 1 = Some b /\
    (b = true <-> forall k, 0 <= k -> dt_at t1 (p1 + k) = dt_at t2 (p2 + k)).
Proof.
  intros EI. induction fuel as [|fuel IH]; intros p1 p2 F A B; cbn [half_loop];
    destruct (in_range t1 p1 || in_range t2 p2) eqn:E.
  - apply orb_true_iff in E as [E|E]; apply in_range_spec in E; lia.
  - apply orb_false_iff in E as [E1 E2]. apply in_range_spec_false in E1, E2.
    exists true. split; [reflexivity|]. split; [|reflexivity]. intros _ k K.
    rewrite !dt_at_out by lia. exact EI.
  - rewrite !dt_read_pos_at. destruct (Nat.eqb_spec (dt_at t1 p1) (dt_at t2 p2)) as [Q|Q].
    + destruct (IH (p1 + 1) (p2 + 1)) as (b & Eb & Hb).
      { apply orb_true_iff in E as [E|E]; apply in_range_spec in E; lia. } { lia. } { lia. }
      exists b. split; [exact Eb|]. rewrite Hb. split; intros H k K.
      * destruct (Z.eq_dec k 0) as [->|]; [rewrite !Z.add_0_r; exact Q|].
        specialize (H (k - 1) ltac:(lia)).
        replace (p1 + 1 + (k - 1)) with (p1 + k) in H by lia. replace (p2 + 1 + (k - 1)) with (p2 + k) in H by lia.
        exact H.
      * specialize (H (k + 1) ltac:(lia)).
        replace (p1 + 1 + k) with (p1 + (k + 1)) by lia. replace (p2 + 1 + k) with (p2 + (k + 1)) by lia. exact H.
    + exists false. split; [reflexivity|]. split; [discriminate|]. intros H. specialize (H 0 ltac:(lia)).
      rewrite !Z.add_0_r in H. contradiction.
  - apply orb_false_iff in E as [E1 E2]. apply in_range_spec_false in E1, E2.
    exists true. split; [reflexivity|]. split; [|reflexivity]. intros _ k K.
    rewrite !dt_at_out by lia. exact EI.
Qed.

Lemma half_left t1 t2 : dt_init t1 = dt_init t2 -> forall fuel p1 p2,
  (Z.to_nat (Z.max (p1 - dt_leftmost t1) (p2 - dt_leftmost t2) + 1) <= fuel)%nat ->
  p2 <= dt_rightmost t2 -> p1 - dt_rightmost t1 <= p2 - (dt_leftmost t2 - 1) ->
  exists b, half_loop fuel t1 p1 t2 p2 (-1) = Some b /\
    (b = true <-> forall k, 0 <= k -> dt_at t1 (p1 - k) = dt_at t2 (p2 - k)).
Proof.
  intros EI. induction fuel as [|fuel IH]; intros p1 p2 F A B; cbn [half_loop];
    destruct (in_range t1 p1 || in_range t2 p2) eqn:E.
  - apply orb_true_iff in E as [E|E]; apply in_range_spec in E; lia.
  - apply orb_false_iff in E as [E1 E2]. apply in_range_spec_false in E1, E2.
    exists true. split; [reflexivity|]. split; [|reflexivity]. intros _ k K.
    rewrite !dt_at_out by lia. exact EI.
  - rewrite !dt_read_pos_at. destruct (Nat.eqb_spec (dt_at t1 p1) (dt_at t2 p2)) as [Q|Q].
    + destruct (IH (p1 + -1) (p2 + -1)) as (b & Eb & Hb).
      { apply orb_true_iff in E as [E|E]; apply in_range_spec in E; lia. } { lia. } { lia. }
      exists b. split; [exact Eb|]. rewrite Hb. split; intros H k K.
      * destruct (Z.eq_dec k 0) as [->|]; [rewrite !Z.sub_0_r; exact Q|].
        specialize (H (k - 1) ltac:(lia)).
        replace (p1 + -1 - (k - 1)) with (p1 - k) in H by lia. replace (p2 + -1 - (k - 1)) with (p2 - k) in H by lia.
        exact H.
      * specialize (H (k + 1) ltac:(lia)).
        replace (p1 + -1 - k) with (p1 - (k + 1)) by lia. replace (p2 + -1 - k) with (p2 - (k + 1)) by lia. exact H.
    + exists false. split; [reflexivity|]. split; [discriminate|]. intros H. specialize (H 0 ltac:(lia)).
      rewrite !Z.sub_0_r in H. contradiction.
  - apply orb_false_iff in E as [E1 E2]. apply in_range_spec_false in E1, E2.
    exists true. split; [reflexivity|]. split; [|reflexivity]. intros _ k K.
    rewrite !dt_at_out by lia. exact EI.
Qed.

Lemma sections_ok t1 t2 o : forall n p, exists b, sections_loop t1 t2 p n o = Some b /\
  (b = true <-> forall k, 0 <= k < Z.of_nat n -> dt_at t1 (p + k) = dt_at t2 (p + k + o)).
Proof.
  induction n as [|n IH]; intros p; cbn [sections_loop].
  - exists true. split; [reflexivity|]. split; [|reflexivity]. intros; lia.
  - rewrite !dt_read_pos_at. destruct (Nat.eqb_spec (dt_at t1 p) (dt_at t2 (p + o))) as [Q|Q].
    + destruct (IH (p + 1)) as (b & Eb & Hb). exists b. split; [exact Eb|]. rewrite Hb. split; intros H k K.
      * destruct (Z.eq_dec k 0) as [->|]; [rewrite !Z.add_0_r; exact Q|].
        specialize (H (k - 1) ltac:(lia)). replace (p + 1 + (k - 1)) with (p + k) in H by lia. exact H.
      * specialize (H (k + 1) ltac:(lia)). replace (p + 1 + k) with (p + (k + 1)) by lia. exact H.
    + exists false. split; [reflexivity|]. split; [discriminate|]. intros H. specialize (H 0 ltac:(lia)).
      rewrite !Z.add_0_r in H. contradiction.
Qed.

(** ** The recurrence test *)
Definition hull (t : dtape) (l r : Z) : Prop := dt_leftmost t <= l /\ r <= dt_rightmost t.

Definition shows (T : table) (n m : nat) (s : dsim) (k : nat) (c : config) : Prop :=
  dt_ok (ds_tape s) /\ dt_init (ds_tape s) = 0%nat /\ ds_halted s = false /\ ds_halt s = None /\ ds_step_num s = k /\
  steps T k initial = Some c /\ ds_state s = SRun (st c) /\ (st c < n)%nat /\
  dt_position (ds_tape s) = hd c /\
  (forall z, dt_at (ds_tape s) z = tp c z) /\ forall z, (tp c z < m)%nat.

Lemma shows_hull T n m s k c : shows T n m s k c -> hull (ds_tape s) (hd c) (hd c).
Proof.
  intros (O & _ & _ & _ & _ & _ & _ & _ & P & _). unfold hull, dt_leftmost, dt_rightmost, dt_index2pos, dt_ok in *. lia.
Qed.
Lemma shows_ok T n m s k c : shows T n m s k c -> dsim_ok T n m s.
Proof.
  intros (O & I & H & HH & N & R & S & L & P & A & B). split; [exact O|]. split; [exact I|]. left.
  split; [exact H|]. split; [exact HH|]. exists c. rewrite N. auto 10.
Qed.
Lemma ok_shows T n m s : dsim_ok T n m s -> ds_halted s = false -> exists c, shows T n m s (ds_step_num s) c.
Proof.
  intros (O & I & [(H & HH & c & R & S & L & P & A & B)|(H & _)]) F; [|congruence].
  exists c. repeat (split; [assumption|]). split; [reflexivity|]. auto 10.
Qed.
Lemma ok_stopped T n m s : dsim_ok T n m s -> ds_halted s = true -> dsim_stopped T s.
Proof. intros (O & I & [(H & _)|H]) F; [congruence|exact H]. Qed.

Lemma ds_step_hull M s s' l r : ds_step M s = Some s' -> dt_ok (ds_tape s) -> hull (ds_tape s) l r ->
  hull (ds_tape s') l r.
Proof.
  intros E O (A & B). unfold ds_step in E. destruct (ds_halted s); [apply (f_equal (fun o => match o with Some x => x | None => s end)) in E; subst s'; split; assumption|].
  destruct (dt_read (ds_tape s)) as [x|]; [|discriminate].
  destruct (m_trans M x (ds_state s) R) as [t|]; [|discriminate].
  destruct (dt_write_ok (ds_tape s) (t_sym t) O) as (t1 & E1 & O1 & P1 & _ & L1 & R1 & _). rewrite E1 in E.
  destruct (dt_move_ok t1 (t_dir t) O1) as (t2 & E2 & O2 & P2 & _ & L2 & R2 & _). rewrite E2 in E.
  assert (H : ds_tape s' = t2) by (destruct (sstate_eqb (t_state t) SHalt); assert (X := f_equal (option_map ds_tape) E); cbn in X; congruence).
  rewrite H. unfold hull. lia.
Qed.

Lemma recur_test_ok T n m init sim k k' c d lo hi :
  shows T n m init k c -> shows T n m sim k' d ->
  lo <= hd c <= hi -> lo <= hd d <= hi -> hull (ds_tape sim) lo hi ->
  exists b, recur_test init lo hi sim = Some b /\ (b = true <-> chk c d lo hi).
Proof.
  intros S1 S2 B1 B2 (H1 & H2). pose proof (shows_hull _ _ _ _ _ _ S1) as (G1 & G2).
  destruct S1 as (O1 & I1 & _ & _ & _ & _ & ST1 & _ & P1 & A1 & _).
  destruct S2 as (O2 & I2 & _ & _ & _ & _ & ST2 & _ & P2 & A2 & _).
  assert (EI : dt_init (ds_tape init) = dt_init (ds_tape sim)) by congruence.
  unfold recur_test. rewrite ST1, ST2, P1, P2. cbn [sstate_eqb].
  destruct (Nat.eqb_spec (st d) (st c)) as [E|E].
  2:{ exists false. split; [reflexivity|]. split; [discriminate|]. intros (X & _). contradiction. }
  unfold chk. set (o := hd d - hd c).
  destruct (Z.gtb_spec o 0) as [L|L]; [|destruct (Z.ltb_spec o 0) as [L'|L']].
  - unfold are_half_tapes_equal, half_fuel. cbn [Z.gtb Z.compare].
    destruct (half_right (ds_tape init) (ds_tape sim) EI _ lo (lo + o) (le_n _) ltac:(lia) ltac:(unfold o in *; lia)) as (b & Eb & Hb).
    exists b. split; [exact Eb|]. rewrite Hb. split.
    + intros H. split; [exact E|]. intros z (Z1 & _). specialize (H (z - lo) ltac:(lia)).
      rewrite A1, A2 in H. replace (lo + (z - lo)) with z in H by lia.
      replace (lo + o + (z - lo)) with (z + o) in H by lia. exact H.
    + intros (_ & H) x X. rewrite A1, A2. specialize (H (lo + x)).
      replace (lo + o + x) with (lo + x + o) by lia. apply H. unfold region. repeat split; intros; lia.
  - unfold are_half_tapes_equal, half_fuel. cbn [Z.gtb Z.compare].
    destruct (half_left (ds_tape init) (ds_tape sim) EI _ hi (hi + o) (le_n _) ltac:(lia) ltac:(unfold o in *; lia)) as (b & Eb & Hb).
    exists b. split; [exact Eb|]. rewrite Hb. split.
    + intros H. split; [exact E|]. intros z (_ & Z1 & _). specialize (H (hi - z) ltac:(lia)).
      rewrite A1, A2 in H. replace (hi - (hi - z)) with z in H by lia.
      replace (hi + o - (hi - z)) with (z + o) in H by lia. exact H.
    + intros (_ & H) x X. rewrite A1, A2. specialize (H (hi - x)).
      replace (hi + o - x) with (hi - x + o) by lia. apply H. unfold region. repeat split; intros; lia.
  - assert (O0 : o = 0) by lia. unfold are_sections_equal.
    destruct (sections_ok (ds_tape init) (ds_tape sim) o (Z.to_nat (hi + 1 - lo)) lo) as (b & Eb & Hb).
    exists b. split; [exact Eb|]. rewrite Hb. split.
    + intros H. split; [exact E|]. intros z (_ & _ & Z1). specialize (H (z - lo) ltac:(lia)).
      rewrite A1, A2 in H. replace (lo + (z - lo)) with z in H by lia. exact H.
    + intros (_ & H) x X. rewrite A1, A2. apply H. unfold region. repeat split; intros; lia.
Qed.

(** ** Last visits and quasihalting *)
Definition last_visit (T : table) (n : nat) (q : nat) (k : nat) : Prop :=
  (k < n)%nat /\ (exists c, steps T k initial = Some c /\ st c = q) /\
  forall j c, (k < j < n)%nat -> steps T j initial = Some c -> st c <> q.

Definition seen_ok (T : table) (n : nat) (d : sdict) : Prop :=
  forall x v, In (x, v) d <-> exists q k, x = SRun q /\ v = Z.of_nat k /\ last_visit T n q k.

Lemma sstate_eqb_eq a b : sstate_eqb a b = true <-> a = b.
Proof.
  destruct a, b; cbn; try (split; congruence). rewrite Nat.eqb_eq. split; congruence.
Qed.

Lemma sd_set_in x v d k w : NoDup (map fst d) ->
  (In (k, w) (sd_set x v d) <-> (k = x /\ w = v) \/ (k <> x /\ In (k, w) d)).
Proof.
  induction d as [|[k' v'] d IH]; intros ND; cbn [sd_set In].
  - split.
    + intros [H|[]]. left. split; congruence.
    + intros [[-> ->]|[_ []]]. left. reflexivity.
  - inversion ND as [|? ? N1 N2]; subst. cbn in N1.
    destruct (sstate_eqb x k') eqn:E.
    + apply sstate_eqb_eq in E. subst k'. cbn [In]. split.
      * intros [H|H]; [left; split; congruence|]. right. split; [|right; exact H].
        intros ->. apply N1. change x with (fst (x, w)). apply in_map. exact H.
      * intros [[-> ->]|[N [H|H]]]; [left; reflexivity|congruence|right; exact H].
    + assert (NE : x <> k') by (intros H; apply sstate_eqb_eq in H; congruence).
      cbn [In]. rewrite (IH N2). split.
      * intros [H|[H|[N H]]]; [right; split; [congruence|left; exact H]|left; exact H|right; split; [exact N|right; exact H]].
      * intros [H|[N [H|H]]]; [right; left; exact H|left; exact H|right; right; split; assumption].
Qed.
Lemma sd_set_nodup x v d : NoDup (map fst d) -> NoDup (map fst (sd_set x v d)).
Proof.
  induction d as [|[k' v'] d IH]; intros ND; cbn [sd_set map fst].
  - constructor; [intros []|constructor].
  - inversion ND as [|? ? N1 N2]; subst. cbn in N1.
    destruct (sstate_eqb x k') eqn:E; cbn [map fst]; [constructor; assumption|].
    constructor; [|apply IH, N2]. intros H. apply in_map_iff in H as ((k, w) & E1 & H).
    cbn in E1. subst k. apply (sd_set_in x v d k' w N2) in H as [[H _]|[_ H]].
    + assert (sstate_eqb x k' = true) by (apply sstate_eqb_eq; congruence). congruence.
    + apply N1. change k' with (fst (k', w)). apply in_map. exact H.
Qed.

Lemma seen_step T n d c : NoDup (map fst d) -> seen_ok T n d -> steps T n initial = Some c ->
  seen_ok T (S n) (sd_set (SRun (st c)) (Z.of_nat n) d).
Proof.
  intros ND S R x v. rewrite sd_set_in by exact ND. split.
  - intros [[-> ->]|[N H]].
    + exists (st c), n. split; [reflexivity|]. split; [reflexivity|].
      split; [lia|]. split; [exists c; auto|]. intros; lia.
    + apply S in H as (q & k & -> & -> & L & V & NV). exists q, k. split; [reflexivity|]. split; [reflexivity|].
      split; [lia|]. split; [exact V|]. intros j e J E.
      destruct (Nat.eq_dec j n) as [->|]; [|apply (NV j e); [lia|exact E]].
      assert (e = c) as -> by congruence. congruence.
  - intros (q & k & -> & -> & L & V & NV).
    destruct (Nat.eq_dec q (st c)) as [->|NQ].
    + left. split; [reflexivity|]. destruct (Nat.eq_dec k n) as [->|]; [reflexivity|].
      exfalso. apply (NV n c); [lia|exact R|reflexivity].
    + right. split; [congruence|]. apply S. exists q, k. split; [reflexivity|]. split; [reflexivity|].
      split; [|split; [exact V|]].
      * destruct (Nat.eq_dec k n) as [->|]; [|lia]. destruct V as (e & E & <-). congruence.
      * intros j e J. apply NV. lia.
Qed.

Lemma quasi_pick_ok ig d : (forall k v, In (k, v) d -> 0 <= v) ->
  match quasi_pick ig d with
  | (None, _) => forall k v, In (k, v) d -> In k ig
  | (Some q, m) => In (q, m) d /\ ~ In q ig /\ forall k v, In (k, v) d -> ~ In k ig -> v <= m
  end.
Proof.
  intros P. unfold quasi_pick.
  assert (EX : forall k, existsb (sstate_eqb k) ig = true <-> In k ig).
  { intros k. rewrite existsb_exists. split.
    - intros (x & I & E). apply sstate_eqb_eq in E. congruence.
    - intros I. exists k. split; [exact I|]. now apply sstate_eqb_eq. }
  set (f := fun (acc : option sstate * Z) (kv : sstate * Z) =>
    if existsb (sstate_eqb (fst kv)) ig then acc
    else if snd kv >? snd acc then (Some (fst kv), snd kv) else acc).
  assert (G : forall l done acc, d = done ++ l ->
    match acc with
    | (None, m) => m = -1 /\ forall k v, In (k, v) done -> In k ig
    | (Some q, m) => In (q, m) done /\ ~ In q ig /\ forall k v, In (k, v) done -> ~ In k ig -> v <= m
    end ->
    match fold_left f l acc with
    | (None, m) => m = -1 /\ forall k v, In (k, v) d -> In k ig
    | (Some q, m) => In (q, m) d /\ ~ In q ig /\ forall k v, In (k, v) d -> ~ In k ig -> v <= m
    end).
  { induction l as [|[k v] l IH]; intros done acc E H; cbn [fold_left].
    - rewrite app_nil_r in E. rewrite E. exact H.
    - apply (IH (done ++ [(k, v)])); [rewrite <- app_assoc; exact E|].
      assert (PV : 0 <= v) by (apply (P k); rewrite E; apply in_or_app; right; left; reflexivity).
      unfold f. cbn [fst snd]. destruct (existsb (sstate_eqb k) ig) eqn:X.
      + apply EX in X. destruct acc as [[q|] m].
        * destruct H as (A & B & C). split; [apply in_or_app; left; exact A|]. split; [exact B|].
          intros k' v' I N. apply in_app_or in I as [I|[I|[]]]; [apply (C k'); assumption|].
          assert (k' = k) as -> by congruence. contradiction.
        * destruct H as (A & C). split; [exact A|]. intros k' v' I. apply in_app_or in I as [I|[I|[]]]; [apply (C k' v'); exact I|].
          assert (k' = k) as -> by congruence. exact X.
      + assert (X' : ~ In k ig) by (intros I; apply EX in I; congruence).
        destruct (Z.gtb_spec v (snd acc)) as [L|L].
        * split; [apply in_or_app; right; left; reflexivity|]. split; [exact X'|].
          intros k' v' I N. apply in_app_or in I as [I|[I|[]]].
          -- destruct acc as [[q|] m]; cbn [snd] in L.
             ++ destruct H as (A & B & C). specialize (C k' v' I N). lia.
             ++ destruct H as (A & C). exfalso. apply N. exact (C k' v' I).
          -- assert (v' = v) by congruence. lia.
        * destruct acc as [[q|] m]; cbn [snd] in L.
          -- destruct H as (A & B & C). split; [apply in_or_app; left; exact A|]. split; [exact B|].
             intros k' v' I N. apply in_app_or in I as [I|[I|[]]]; [apply (C k'); assumption|].
             assert (v' = v) by congruence. lia.
          -- destruct H as (A & _). lia. }
  specialize (G d [] (None, -1) eq_refl). cbn beta iota in G.
  assert (G0 : -1 = -1 /\ (forall k v, In (k, v) (@nil (sstate * Z)) -> In k ig)) by (split; [reflexivity|intros ? ? []]).
  specialize (G G0). destruct (fold_left f d (None, -1)) as [[q|] m]; [exact G|apply G].
Qed.

(** Specification of quasihalt statuses. *)
Definition quasi_ok (T : table) (b : quasi) : Prop :=
  match b with
  | QUndecided => True
  | QNot => forall n c, steps T n initial = Some c -> recurs T initial (st c)
  | QHalt k (SRun q) =>
    exists n c, k = Z.of_nat (S n) /\ steps T n initial = Some c /\ st c = q /\
      forall j d, (n < j)%nat -> steps T j initial = Some d -> st d <> q /\ recurs T initial (st d)
  | QHalt _ SHalt => False
  end.

(** If the states recurring are exactly [used], and from step [n] on only these occur *)
Lemma quasi_from T n used seen : seen_ok T n seen ->
  (forall q, In (SRun q) used <-> recurs T initial q) ->
  (forall j c, (n <= j)%nat -> steps T j initial = Some c -> recurs T initial (st c)) ->
  nonhalting T initial ->
  quasi_ok T (set_inf_recur (Some used) (Some seen)).
Proof.
  intros S U F NH. unfold set_inf_recur.
  pose proof (quasi_pick_ok used seen) as Q.
  assert (P : forall k v, In (k, v) seen -> 0 <= v).
  { intros k v I. apply S in I as (q & j & _ & -> & _). lia. }
  specialize (Q P). destruct (quasi_pick used seen) as [[x|] m].
  - destruct Q as (I & N & MX). apply S in I as (q & k & -> & -> & L & (c & R & E) & NV).
    cbn [quasi_ok]. exists k, c. split; [lia|]. split; [exact R|]. split; [exact E|].
    assert (NR : ~ recurs T initial q) by (rewrite <- U; exact N).
    intros j d J Rd.
    assert (RC : recurs T initial (st d)).
    { destruct (Nat.le_gt_cases n j) as [X|X]; [apply (F j d X Rd)|].
      apply U. destruct (In_dec (fun a b => ltac:(destruct (sstate_eqb a b) eqn:EE; [left; now apply sstate_eqb_eq|right; intros HH; apply sstate_eqb_eq in HH; congruence]) : {a = b} + {a <> b}) (SRun (st d)) used) as [Y|Y]; [exact Y|].
      exfalso.
      (* the last visit of this state is at j or later, but the recorded maximum is k < j *)
      assert (V : exists v, (j <= v)%nat /\ last_visit T n (st d) v).
      { clear - X Rd. remember (n - j)%nat as g. revert j d X Rd Heqg.
        induction g as [g IH] using lt_wf_ind. intros j d X Rd G.
        assert (D : (exists i e, (j < i < n)%nat /\ steps T i initial = Some e /\ st e = st d) \/
                    (forall i e, (j < i < n)%nat -> steps T i initial = Some e -> st e <> st d)).
        { assert (DD : forall b, (exists i e, (j < i < b)%nat /\ steps T i initial = Some e /\ st e = st d) \/
                    (forall i e, (j < i < b)%nat -> steps T i initial = Some e -> st e <> st d)).
          { induction b as [|b IHb]; [right; intros; lia|].
            destruct IHb as [(i & e & A & B)|N]; [left; exists i, e; split; [lia|exact B]|].
            destruct (Nat.lt_ge_cases j b) as [JB|JB]; [|right; intros i e A; lia].
            destruct (steps T b initial) as [e|] eqn:Re.
            - destruct (Nat.eq_dec (st e) (st d)) as [Q|Q]; [left; exists b, e; split; [lia|auto]|].
              right. intros i f A B. destruct (Nat.eq_dec i b) as [->|]; [congruence|]. apply (N i f); [lia|exact B].
            - right. intros i f A B. destruct (Nat.eq_dec i b) as [->|]; [congruence|]. apply (N i f); [lia|exact B]. }
          apply DD. }
        destruct D as [(i & e & A & B & C)|N].
        - destruct (IH (n - i)%nat ltac:(lia) i e ltac:(lia) B eq_refl) as (v & V1 & V2).
          exists v. split; [lia|]. rewrite <- C. exact V2.
        - exists j. split; [lia|]. split; [exact X|]. split; [exists d; auto|exact N]. }
      destruct V as (v & V1 & V2).
      assert (I2 : In (SRun (st d), Z.of_nat v) seen) by (apply S; exists (st d), v; auto).
      specialize (MX _ _ I2 Y). lia. }
    split; [|exact RC]. intros Eq. apply NR. rewrite <- Eq. exact RC.
  - cbn [quasi_ok]. intros j c R.
    destruct (Nat.le_gt_cases n j) as [X|X]; [apply (F j c X R)|].
    apply U. assert (V : exists v, last_visit T n (st c) v).
    { clear - X R. remember (n - j)%nat as g. revert j c X R Heqg.
      induction g as [g IH] using lt_wf_ind. intros j d X Rd G.
      assert (DD : forall b, (exists i e, (j < i < b)%nat /\ steps T i initial = Some e /\ st e = st d) \/
                  (forall i e, (j < i < b)%nat -> steps T i initial = Some e -> st e <> st d)).
      { induction b as [|b IHb]; [right; intros; lia|].
        destruct IHb as [(i & e & A & B)|N]; [left; exists i, e; split; [lia|exact B]|].
        destruct (Nat.lt_ge_cases j b) as [JB|JB]; [|right; intros i e A; lia].
        destruct (steps T b initial) as [e|] eqn:Re.
        - destruct (Nat.eq_dec (st e) (st d)) as [Q|Q]; [left; exists b, e; split; [lia|auto]|].
          right. intros i f A B. destruct (Nat.eq_dec i b) as [->|]; [congruence|]. apply (N i f); [lia|exact B].
        - right. intros i f A B. destruct (Nat.eq_dec i b) as [->|]; [congruence|]. apply (N i f); [lia|exact B]. }
      destruct (DD n) as [(i & e & A & B & C)|N].
      - destruct (IH (n - i)%nat ltac:(lia) i e ltac:(lia) B eq_refl) as (v & V2).
        exists v. rewrite <- C. exact V2.
      - exists j. split; [exact X|]. split; [exists d; auto|exact N]. }
    destruct V as (v & V). apply (Q (SRun (st c)) (Z.of_nat v)). apply S. exists (st c), v. auto.
Qed.

(** ** The search *)
Lemma span_0 T s c : steps T s initial = Some c -> span T s 0 (hd c) (hd c).
Proof.
  intros R. split; [|split].
  - intros i d L E. replace (s + i)%nat with s in E by lia. assert (d = c) as -> by congruence. lia.
  - exists 0%nat, c. rewrite Nat.add_0_r. auto.
  - exists 0%nat, c. rewrite Nat.add_0_r. auto.
Qed.
Lemma span_S T s i lo hi d : span T s i lo hi -> steps T (s + S i) initial = Some d ->
  span T s (S i) (Z.min lo (hd d)) (Z.max hi (hd d)).
Proof.
  intros (A & (il & cl & L1 & L2 & L3) & (ir & cr & R1 & R2 & R3)) E. split; [|split].
  - intros j e J Ej. destruct (Nat.eq_dec j (S i)) as [->|N].
    + assert (e = d) as -> by congruence. lia.
    + specialize (A j e ltac:(lia) Ej). lia.
  - destruct (Z.min_spec lo (hd d)) as [[_ X]|[_ X]]; rewrite X.
    + exists il, cl. split; [lia|]. auto.
    + exists (S i), d. split; [lia|]. auto.
  - destruct (Z.max_spec hi (hd d)) as [[_ X]|[_ X]]; rewrite X.
    + exists (S i), d. split; [lia|]. auto.
    + exists ir, cr. split; [lia|]. auto.
Qed.

Section Search.
  Variables (n m : nat) (tab : ttable).
  Hypothesis W : wf_ttable n m tab.
  Notation T := (table_of tab).
  Notation M := (simple_machine tab).
  Notation run k := (steps T k initial).

  Definition used_ok (s i : nat) (used : list sstate) : Prop :=
    forall q, In (SRun q) used <-> exists j e, (j < i)%nat /\ run (s + j) = Some e /\ st e = q.

  Lemma step_shows sim k d : shows T n m sim k d ->
    exists sim', ds_step M sim = Some sim' /\ ds_step_num sim' = S k /\ dsim_ok T n m sim' /\
      forall l r, hull (ds_tape sim) l r -> hull (ds_tape sim') l r.
  Proof.
    intros S. destruct (ds_step_ok n m tab sim W (shows_ok _ _ _ _ _ _ S)) as (s' & E & O & _ & N).
    exists s'. split; [exact E|]. split; [|split; [exact O|]].
    - destruct S as (_ & _ & H & _ & K & _). rewrite (N H), K. reflexivity.
    - intros l r. apply (ds_step_hull M sim s' l r E). apply S.
  Qed.

  Lemma inner_ok init s c : shows T n m init s c -> forall fuel i lo hi used seen sim d,
    shows T n m sim (s + i) d -> (i <= s)%nat -> (s - i <= fuel)%nat ->
    span T s i lo hi -> hull (ds_tape sim) lo hi ->
    NoDup (map fst seen) -> seen_ok T (s + i) seen -> used_ok s i used ->
    (forall j, (0 < j <= i)%nat -> ~ lin_recurrent T s j) ->
    match inner_loop M fuel init lo hi used seen sim with
    | None => False
    | Some (IHalted s') => dsim_stopped T s'
    | Some (ISuccess s' used seen) =>
      exists p d', (0 < p)%nat /\ shows T n m s' (s + p) d' /\ lin_recurrent T s p /\
        (forall j, (0 < j < p)%nat -> ~ lin_recurrent T s j) /\
        seen_ok T (s + p) seen /\ used_ok s p used
    | Some (IReset s' seen) =>
      exists d', shows T n m s' (2 * s) d' /\ NoDup (map fst seen) /\ seen_ok T (2 * s) seen /\
        (forall j, (0 < j <= s)%nat -> ~ lin_recurrent T s j)
    end.
  Proof.
    intros SI. assert (NI : ds_step_num init = s) by apply SI.
    assert (Rc : run s = Some c) by apply SI.
    induction fuel as [|fuel IH]; intros i lo hi used seen sim d SS IL F SP HU ND SE US NL; cbn [inner_loop];
      assert (NS : ds_step_num sim = (s + i)%nat) by apply SS; rewrite NI, NS.
    - destruct (Nat.ltb_spec (s + i) (2 * s)) as [L|L]; [lia|].
      assert (i = s) as -> by lia. replace (s + s)%nat with (2 * s)%nat in * by lia. exists d. auto.
    - destruct (Nat.ltb_spec (s + i) (2 * s)) as [L|L].
      2:{ assert (i = s) as -> by lia. replace (s + s)%nat with (2 * s)%nat in * by lia. exists d. auto. }
      destruct (step_shows sim (s + i) d SS) as (sim' & E & N' & O' & HU'). rewrite E.
      assert (DS : ds_state sim = SRun (st d)) by apply SS.
      assert (Rd : run (s + i) = Some d) by apply SS.
      destruct (ds_halted sim') eqn:HH; [apply (ok_stopped _ _ _ _ O' HH)|].
      destruct (ok_shows _ _ _ _ O' HH) as (d' & SS'). rewrite N' in SS'.
      replace (S (s + i)) with (s + S i)%nat in SS' by lia.
      assert (P' : dt_position (ds_tape sim') = hd d') by apply SS'. rewrite P'.
      assert (Rd' : run (s + S i) = Some d') by apply SS'.
      pose proof (span_S T s i lo hi d' SP Rd') as SP'.
      assert (HU2 : hull (ds_tape sim') (Z.min lo (hd d')) (Z.max hi (hd d'))).
      { destruct (HU' _ _ HU) as [A B]. destruct (shows_hull _ _ _ _ _ _ SS') as [A' B']. split; lia. }
      assert (SE' : seen_ok T (s + S i) (sd_set (ds_state sim) (Z.of_nat (s + i)) seen)).
      { rewrite DS. replace (s + S i)%nat with (S (s + i)) by lia. apply seen_step; assumption. }
      assert (ND' : NoDup (map fst (sd_set (ds_state sim) (Z.of_nat (s + i)) seen))) by (apply sd_set_nodup, ND).
      assert (US' : used_ok s (S i) (ds_state sim :: used)).
      { intros q. cbn [In]. rewrite DS, (US q). split.
        - intros [H|(j & e & A & B & C)]; [exists i, d; split; [lia|]; split; [exact Rd|congruence]|].
          exists j, e. split; [lia|]. auto.
        - intros (j & e & A & B & C). destruct (Nat.eq_dec j i) as [->|].
          + left. assert (e = d) as -> by congruence. congruence.
          + right. exists j, e. split; [lia|]. auto. }
      destruct (recur_test_ok T n m init sim' s (s + S i) c d' _ _ SI SS'
                 (proj1 SP' 0%nat c ltac:(lia) ltac:(rewrite Nat.add_0_r; exact Rc))
                 (proj1 SP' (S i) d' ltac:(lia) Rd') HU2) as (b & Eb & Hb).
      rewrite Eb. destruct b.
      + exists (S i), d'. split; [lia|]. split; [exact SS'|].
        split; [apply (chk_lr T s (S i) c d' _ _ ltac:(lia) Rc Rd' SP'); apply Hb; reflexivity|].
        split; [intros j J; apply NL; lia|]. split; [exact SE'|exact US'].
      + apply (IH (S i) _ _ _ _ sim' d' SS'); auto; try lia.
        intros j J. destruct (Nat.eq_dec j (S i)) as [->|]; [|apply NL; lia].
        intros LR. pose proof (lr_chk T s (S i) c d' _ _ LR Rc Rd' SP') as K. apply Hb in K. discriminate.
  Qed.

  Lemma used_recurs s p used : lin_recurrent T s p -> used_ok s p used ->
    (forall q, In (SRun q) used <-> recurs T initial q) /\
    (forall j c, (s <= j)%nat -> run j = Some c -> In (SRun (st c)) used).
  Proof.
    intros LR US. assert (P : (0 < p)%nat) by apply LR.
    assert (LATE : forall k j, exists c d, run (s + j) = Some c /\ run (s + j + k * p) = Some d /\ st d = st c).
    { induction k as [|k IH]; intros j.
      - destruct (proj2 LR j) as (c & d & A & _). exists c, c. cbn [Nat.mul]. rewrite Nat.add_0_r. auto.
      - destruct (IH j) as (c & d & A & B & C).
        destruct (proj2 LR (j + k * p)%nat) as (c' & d' & A' & B' & C' & _).
        replace (s + (j + k * p))%nat with (s + j + k * p)%nat in * by lia.
        assert (c' = d) as -> by congruence.
        exists c, d'. split; [exact A|]. replace (s + j + S k * p)%nat with (s + j + k * p + p)%nat by lia.
        split; [exact B'|congruence]. }
    assert (IN : forall j c, (s <= j)%nat -> run j = Some c -> In (SRun (st c)) used).
    { intros j c L R. apply US.
      destruct (LATE ((j - s) / p)%nat ((j - s) mod p)%nat) as (e & d & A & B & C).
      exists ((j - s) mod p)%nat, e. split; [apply Nat.mod_upper_bound; lia|]. split; [exact A|].
      pose proof (Nat.div_mod (j - s) p ltac:(lia)) as DM.
      replace (s + (j - s) mod p + (j - s) / p * p)%nat with j in B by lia. congruence. }
    split; [|exact IN]. intros q. split.
    - intros I N. apply US in I as (j & e & J & R & E).
      destruct (LATE N j) as (c & d & A & B & C). exists (s + j + N * p)%nat, d. split; [nia|].
      split; [exact B|]. congruence.
    - intros RC. destruct (RC s) as (j & d & L & R & E). rewrite <- E. apply (IN j d L R).
  Qed.

  Definition no_lr (k : nat) : Prop := forall j, (0 < j <= k)%nat -> ~ lin_recurrent T k j.

  (** what a report must mean *)
  Definition halt_ok (b : bbstatus) : Prop :=
    match b with
    | BHalt k sc (SRun q) x => exists e t, halts_at T initial k q x e t /\ score t sc
    | _ => False
    end.
  Definition lr_ok (r : lr_result) (b : bbstatus) : Prop :=
    lin_recurrent T (lr_start r) (lr_period r) /\
    (forall j, (0 < j < lr_period r)%nat -> ~ lin_recurrent T (lr_start r) j) /\
    (exists c d, run (lr_start r) = Some c /\ run (lr_start r + lr_period r) = Some d /\
       lr_offset r = hd d - hd c) /\
    exists q, b = BInf q /\ q <> QUndecided /\ quasi_ok T q.

  Lemma stopped_halt s : dsim_stopped T s ->
    exists sc q x, ds_halt s = Some (sc, q, x) /\ halt_ok (BHalt (ds_step_num s) sc q x).
  Proof.
    intros (_ & q & x & b & t & k & c & A & B & C & _). exists k, (SRun q), x. split; [exact A|].
    cbn. exists b, t. auto.
  Qed.

  Lemma outer_ok fuel max : forall k seen sim d,
    shows T n m sim k d -> (0 < k)%nat -> NoDup (map fst seen) -> seen_ok T k seen ->
    match outer_loop M fuel max seen sim with
    | None => (max = 0 \/ k * 2 ^ fuel < max)%nat /\ run (k * 2 ^ fuel) <> None /\
              forall j, (j < fuel)%nat -> no_lr (k * 2 ^ j)
    | Some None => False
    | Some (Some (Some r, b)) => lr_ok r b
    | Some (Some (None, BNone)) =>
      max <> 0%nat /\ exists j, (max <= k * 2 ^ j)%nat /\ run (k * 2 ^ j) <> None /\
              forall i, (i < j)%nat -> no_lr (k * 2 ^ i)
    | Some (Some (None, b)) => halt_ok b
    end.
  Proof.
    induction fuel as [|fuel IH]; intros k seen sim d SS K ND SE; cbn [outer_loop];
      assert (NS : ds_step_num sim = k) by apply SS; assert (Rd : run k = Some d) by apply SS; rewrite NS.
    - destruct (Nat.eqb_spec max 0) as [->|N0]; cbn [orb].
      + cbn. rewrite Nat.mul_1_r, Rd. split; [auto|]. split; [discriminate|]. intros; lia.
      + destruct (Nat.ltb_spec k max) as [L|L].
        * cbn. rewrite Nat.mul_1_r, Rd. split; [auto|]. split; [discriminate|]. intros; lia.
        * split; [exact N0|]. exists 0%nat. cbn. rewrite Nat.mul_1_r, Rd. split; [exact L|].
          split; [discriminate|]. intros; lia.
    - assert (GO : Nat.eqb max 0 || Nat.ltb k max = true -> (max = 0 \/ k < max)%nat).
      { intros H. apply orb_true_iff in H as [H|H]; [left; now apply Nat.eqb_eq|right; now apply Nat.ltb_lt]. }
      destruct (Nat.eqb max 0 || Nat.ltb k max) eqn:GE.
      2:{ apply orb_false_iff in GE as [G1 G2]. apply Nat.eqb_neq in G1. apply Nat.ltb_ge in G2.
          split; [exact G1|]. exists 0%nat. cbn. rewrite Nat.mul_1_r, Rd. split; [exact G2|].
          split; [discriminate|]. intros; lia. }
      assert (PS : dt_position (ds_tape sim) = hd d) by apply SS. rewrite PS.
      assert (SS0 : shows T n m sim (k + 0) d) by (rewrite Nat.add_0_r; exact SS).
      pose proof (inner_ok sim k d SS k 0%nat (hd d) (hd d) [] seen sim d SS0 ltac:(lia) ltac:(lia)
                    (span_0 T k d Rd) (shows_hull _ _ _ _ _ _ SS) ND) as I.
      rewrite Nat.add_0_r in I. specialize (I SE).
      assert (U0 : used_ok k 0 []) by (intros q; split; [intros []|intros (j & e & J & _); lia]).
      specialize (I U0 ltac:(intros; lia)).
      destruct (inner_loop M k sim (hd d) (hd d) [] seen sim) as [[s'|s' used seen'|s' seen']|]; [| | |exact I].
      + destruct (stopped_halt s' I) as (sc & q & x & E & H). rewrite E. exact H.
      + destruct I as (p & d' & P & SS' & LR & MIN & SE' & US').
        assert (NS' : ds_step_num s' = (k + p)%nat) by apply SS'.
        assert (PS' : dt_position (ds_tape s') = hd d') by apply SS'.
        assert (Rd' : run (k + p) = Some d') by apply SS'.
        rewrite NS', PS'. replace (k + p - k)%nat with p by lia.
        destruct (used_recurs k p used LR US') as [UR UL].
        split; [exact LR|]. split; [exact MIN|]. split; [exists d, d'; auto|].
        eexists. split; [reflexivity|].
        split; [cbn; destruct (quasi_pick used seen') as [[?|] ?]; discriminate|].
        apply (quasi_from T (k + p) used seen' SE' UR); [|exact (lr_nonhalting T k p LR)].
        intros j c J Rj. apply UR. apply (UL j c); [lia|exact Rj].
      + destruct I as (d' & SS' & ND' & SE' & NL).
        specialize (IH (2 * k)%nat seen' s' d' SS' ltac:(lia) ND' SE').
        assert (EQ : forall j, (2 * k * 2 ^ j = k * 2 ^ S j)%nat) by (intros j; cbn [Nat.pow]; lia).
        assert (NL0 : no_lr (k * 2 ^ 0)) by (cbn; rewrite Nat.mul_1_r; exact NL).
        destruct (outer_loop M fuel max seen' s') as [[[[r|] b]|]|]; [exact IH| |exact IH|].
        * destruct b; [|exact IH|exact IH]. destruct IH as (A & j & B & C & D). split; [exact A|].
          exists (S j). rewrite <- EQ. split; [exact B|]. split; [exact C|].
          intros [|i] I; [exact NL0|]. rewrite <- EQ. apply D. lia.
        * destruct IH as (A & B & C). rewrite <- EQ. split; [exact A|]. split; [exact B|].
          intros [|i] I; [exact NL0|]. rewrite <- EQ. apply C. lia.
  Qed.

  Lemma detect_ok fuel max : max <> 1%nat ->
    match lin_detect_not_min M fuel max with
    | None => fuel = 0%nat \/ (max = 0 \/ 2 ^ fuel < max)%nat /\ run (2 ^ fuel) <> None /\
              forall j, (j < fuel)%nat -> no_lr (2 ^ j)
    | Some None => False
    | Some (Some (Some r, b)) => lr_ok r b
    | Some (Some (None, BNone)) =>
      max <> 0%nat /\ exists j, (max <= 2 ^ j)%nat /\ run (2 ^ j) <> None /\
              forall i, (i < j)%nat -> no_lr (2 ^ i)
    | Some (Some (None, b)) => halt_ok b
    end.
  Proof.
    intros N1. unfold lin_detect_not_min.
    pose proof (ds_new_ok n m tab W) as O.
    destruct (ok_shows T n m _ O eq_refl) as (c0 & S0). cbn [ds_new ds_step_num] in S0.
    assert (c0 = initial) as -> by (assert (X : run 0 = Some c0) by apply S0; cbn in X; congruence).
    destruct (step_shows _ _ _ S0) as (s1 & E & NN & O1 & _). rewrite E.
    destruct (Nat.eqb_spec max 1) as [|_]; [contradiction|].
    destruct (ds_halted s1) eqn:H1.
    - destruct fuel as [|fuel]; cbn [outer_loop].
      + rewrite NN. destruct (Nat.eqb_spec max 0) as [->|N0]; cbn [orb]; [left; reflexivity|].
        destruct (Nat.ltb_spec 1 max) as [L|L]; [left; reflexivity|]. lia.
      + rewrite NN. assert (G : Nat.eqb max 0 || Nat.ltb 1 max = true).
        { destruct (Nat.eqb_spec max 0); [reflexivity|]. apply Nat.ltb_lt. lia. }
        rewrite G. cbn [inner_loop]. rewrite NN. cbn [Nat.ltb Nat.leb Nat.mul Nat.add].
        unfold ds_step. rewrite H1. rewrite H1.
        destruct (stopped_halt s1 (ok_stopped _ _ _ _ O1 H1)) as (sc & q & x & E' & H). rewrite E'. exact H.
    - destruct (ok_shows _ _ _ _ O1 H1) as (c1 & S1). rewrite NN in S1.
      assert (SE : seen_ok T 1 [(SRun 0, 0)]).
      { intros x v. cbn [In]. split.
        - intros [Q|[]]. exists 0%nat, 0%nat. split; [congruence|]. split; [cbn; congruence|].
          split; [lia|]. split; [exists initial; auto|]. intros; lia.
        - intros (q & k & -> & -> & L & (c & R & Q) & _). left. assert (k = 0%nat) as -> by lia.
          cbn in R. assert (c = initial) as -> by congruence. rewrite <- Q. reflexivity. }
      pose proof (outer_ok fuel max 1 [(SRun 0, 0)] s1 c1 S1 ltac:(lia)) as H.
      assert (ND : NoDup (map fst [(SRun 0, 0)])) by (constructor; [intros []|constructor]).
      specialize (H ND SE). change (ds_state (ds_new M)) with (SRun 0).
      destruct (outer_loop M fuel max [(SRun 0, 0)] s1) as [[[[r|] b]|]|].
      + exact H.
      + destruct b; [|exact H|exact H]. destruct H as (A & j & B & C & D). split; [exact A|]. exists j.
        rewrite Nat.mul_1_l in *. split; [exact B|]. split; [exact C|]. intros i I. specialize (D i I). rewrite Nat.mul_1_l in D. exact D.
      + exact H.
      + destruct H as (A & B & C). right. rewrite Nat.mul_1_l in *. split; [exact A|]. split; [exact B|].
        intros j J. specialize (C j J). rewrite Nat.mul_1_l in C. exact C.
  Qed.

  (** ** The second search *)
  Lemma run_period_ok init s c p : shows T n m init s c -> run (s + p) <> None ->
    forall k i lo hi sim d, shows T n m sim (s + i) d -> (i + k = p)%nat -> span T s i lo hi ->
      hull (ds_tape sim) lo hi ->
      exists lo' hi' sim' d', run_period M k lo hi sim = Some (lo', hi', sim') /\
        shows T n m sim' (s + p) d' /\ span T s p lo' hi' /\ hull (ds_tape sim') lo' hi'.
  Proof.
    intros SI RN. induction k as [|k IH]; intros i lo hi sim d SS E SP HU; cbn [run_period].
    - assert (i = p) as -> by lia. exists lo, hi, sim, d. auto.
    - destruct (step_shows sim (s + i) d SS) as (sim' & E1 & N' & O' & HU'). rewrite E1.
      assert (HH : ds_halted sim' = false).
      { destruct (ds_halted sim') eqn:HH; [|reflexivity]. exfalso.
        destruct (ok_stopped _ _ _ _ O' HH) as (_ & q & x & b & t & k' & c' & _ & HA & _).
        destruct HA as (mm & cc & w & dd & Q & R & -> & -> & HM & _). rewrite N' in Q.
        assert (mm = s + i)%nat by lia. subst mm.
        destruct (run (s + p)) as [e|] eqn:Re; [|contradiction].
        destruct (run_le T (s + p) (S (s + i)) e ltac:(lia) Re) as [f Rf].
        rewrite steps_S, R in Rf. unfold step in Rf. rewrite HM in Rf. discriminate. }
      destruct (ok_shows _ _ _ _ O' HH) as (d' & SS'). rewrite N' in SS'.
      replace (S (s + i)) with (s + S i)%nat in SS' by lia.
      assert (P' : dt_position (ds_tape sim') = hd d') by apply SS'. rewrite P'.
      assert (Rd' : run (s + S i) = Some d') by apply SS'.
      apply (IH (S i) _ _ sim' d' SS'); [lia|apply span_S; assumption|].
      destruct (HU' _ _ HU) as [A B]. destruct (shows_hull _ _ _ _ _ _ SS') as [A' B']. split; lia.
  Qed.

  Lemma check_recur_ok s p : (0 < p)%nat -> nonhalting T initial ->
    exists b, check_recur M s p = Some b /\ (b = true <-> lin_recurrent T s p).
  Proof.
    intros P NH. unfold check_recur.
    pose proof (ds_new_ok n m tab W) as O.
    destruct (ds_seek_loop_ok n m tab s W s (ds_new M) O ltac:(cbn; lia)) as (init & E & O' & C).
    unfold ds_seek. rewrite E.
    assert (HH : ds_halted init = false).
    { destruct (ds_halted init) eqn:HH; [|reflexivity]. exfalso.
      destruct (ok_stopped _ _ _ _ O' HH) as (_ & q & x & b & t & k' & c' & _ & HA & _).
      exact (halts_not_nonhalting _ _ _ _ _ _ _ HA NH). }
    assert (NS : ds_step_num init = s).
    { destruct C as [[[C|C] ->]|(_ & _ & C)]; [discriminate| |exact (C HH)]. cbn in *. lia. }
    destruct (ok_shows _ _ _ _ O' HH) as (c & SI). rewrite NS in SI.
    assert (Rc : run s = Some c) by apply SI.
    assert (PS : dt_position (ds_tape init) = hd c) by apply SI. rewrite PS.
    destruct (run_period_ok init s c p SI (NH _) p 0%nat (hd c) (hd c) init c) as (lo & hi & sim & d & E2 & SS & SP & HU).
    - rewrite Nat.add_0_r. exact SI.
    - lia.
    - apply span_0, Rc.
    - apply (shows_hull _ _ _ _ _ _ SI).
    - rewrite E2. assert (Rd : run (s + p) = Some d) by apply SS.
      destruct (recur_test_ok T n m init sim s (s + p) c d lo hi SI SS
                 (proj1 SP 0%nat c ltac:(lia) ltac:(rewrite Nat.add_0_r; exact Rc))
                 (proj1 SP p d ltac:(lia) Rd) HU) as (b & Eb & Hb).
      exists b. split; [exact Eb|]. rewrite Hb. split.
      + apply (chk_lr T s p c d lo hi P Rc Rd SP).
      + intros LR. apply (lr_chk T s p c d lo hi LR Rc Rd SP).
  Qed.

  Lemma period_loop_ok p : (0 < p)%nat -> nonhalting T initial -> forall fuel low high,
    (Z.to_nat (high - low) <= fuel)%nat -> -1 <= low < high ->
    (low = -1 \/ ~ lin_recurrent T (Z.to_nat low) p) -> lin_recurrent T (Z.to_nat high) p ->
    exists r, period_loop M fuel p low high = Some r /\ 0 <= r /\ lin_recurrent T (Z.to_nat r) p /\
      forall j, (j < Z.to_nat r)%nat -> ~ lin_recurrent T j p.
  Proof.
    intros P NH. induction fuel as [|fuel IH]; intros low high F B LO HI; cbn [period_loop].
    - lia.
    - destruct (Z.gtb_spec (high - low) 1) as [L|L].
      + pose proof (Z.div_mod (high + low) 2 ltac:(lia)) as DM. pose proof (Z.mod_pos_bound (high + low) 2 ltac:(lia)) as MB.
        set (mid := (high + low) / 2) in *.
        destruct (check_recur_ok (Z.to_nat mid) p P NH) as (b & Eb & Hb). rewrite Eb. destruct b.
        * apply IH; [lia|lia|exact LO|apply Hb; reflexivity].
        * apply IH; [lia|lia| |exact HI]. right. intros X. apply Hb in X. discriminate.
      + exists high. split; [reflexivity|]. split; [lia|]. split; [exact HI|].
        intros j J X. destruct LO as [->|LO]; [lia|]. apply LO.
        apply (lr_later T j); [lia|exact X].
  Qed.
End Search.
