(** * The C++ detection of Lin recurrence *)
Require Import ZArith List Lia Bool Arith Permutation.
From Verif Require Import Spec_TM Spec_Rename M_Turing_Machine M_IO M_Enum P_Stream P_Macro P_Quint P_IO P_Tree P_Complete P_Complete2 P_Unique P_Queue
  P_EnumTree P_Count P_Enumerate P_LinRecur Prop_Enum Prop_Count M_Cpp P_Cpp M_CppLR.
Import ListNotations.
Open Scope Z_scope.

Definition vlen (t : vtape) : Z := Z.of_nat (length (v_cells t)).
Definition vhull (t : vtape) (l r : Z) : Prop := - v_start t <= l /\ r < vlen t - v_start t.

Lemma vin t z : vt_in_range t z = true <-> - v_start t <= z < vlen t - v_start t.
Proof. unfold vt_in_range, vlen. rewrite andb_true_iff, Z.leb_le, Z.ltb_lt. lia. Qed.
Lemma vin_false t z : vt_in_range t z = false <-> ~ (- v_start t <= z < vlen t - v_start t).
Proof. rewrite <- vin. destruct (vt_in_range t z); split; congruence. Qed.
Lemma vat_out t z : ~ (- v_start t <= z < vlen t - v_start t) -> vt_read_at t z = 0%nat.
Proof. intros H. apply read_out. unfold vlen in H. lia. Qed.

Lemma half_right t1 t2 : forall fuel p1 p2,
  (Z.to_nat (Z.max (vlen t1 - v_start t1 - p1) (vlen t2 - v_start t2 - p2)) <= fuel)%nat ->
  - v_start t2 <= p2 -> - v_start t1 - p1 <= vlen t2 - v_start t2 - p2 ->
  exists b, cpp_half fuel t1 p1 t2 p2 1 = Some b /\ (b = true <-> forall k, 0 <= k -> vt_read_at t1 (p1 + k) = vt_read_at t2 (p2 + k)).
Proof.
  induction fuel as [|fuel IH]; intros p1 p2 F A B; cbn [cpp_half]; destruct (vt_in_range t1 p1 || vt_in_range t2 p2)%bool eqn:E.
  - apply orb_true_iff in E as [E|E]; apply vin in E; lia.
  - apply orb_false_iff in E as [E1 E2]. apply vin_false in E1, E2. exists true. split; [reflexivity|]. split; [|reflexivity].
    intros _ k K. rewrite !vat_out by lia. reflexivity.
  - destruct (Nat.eqb_spec (vt_read_at t1 p1) (vt_read_at t2 p2)) as [Q|Q].
    + destruct (IH (p1 + 1) (p2 + 1)) as (b & Eb & Hb).
      { apply orb_true_iff in E as [E|E]; apply vin in E; lia. } { lia. } { lia. }
      exists b. split; [exact Eb|]. rewrite Hb. split; intros H k K.
      * destruct (Z.eq_dec k 0) as [-> |]; [rewrite !Z.add_0_r; exact Q|]. specialize (H (k - 1) ltac:(lia)).
        replace (p1 + 1 + (k - 1)) with (p1 + k) in H by lia. replace (p2 + 1 + (k - 1)) with (p2 + k) in H by lia. exact H.
      * specialize (H (k + 1) ltac:(lia)). replace (p1 + 1 + k) with (p1 + (k + 1)) by lia. replace (p2 + 1 + k) with (p2 + (k + 1)) by lia. exact H.
    + exists false. split; [reflexivity|]. split; [discriminate|]. intros H. specialize (H 0 ltac:(lia)). rewrite !Z.add_0_r in H. contradiction.
  - apply orb_false_iff in E as [E1 E2]. apply vin_false in E1, E2. exists true. split; [reflexivity|]. split; [|reflexivity].
    intros _ k K. rewrite !vat_out by lia. reflexivity.
Qed.
Lemma half_left t1 t2 : forall fuel p1 p2,
  (Z.to_nat (Z.max (p1 + v_start t1) (p2 + v_start t2) + 1) <= fuel)%nat ->
  p2 < vlen t2 - v_start t2 -> p1 - (vlen t1 - v_start t1) <= p2 + v_start t2 ->
  exists b, cpp_half fuel t1 p1 t2 p2 (-1) = Some b /\ (b = true <-> forall k, 0 <= k -> vt_read_at t1 (p1 - k) = vt_read_at t2 (p2 - k)).
Proof.
  induction fuel as [|fuel IH]; intros p1 p2 F A B; cbn [cpp_half]; destruct (vt_in_range t1 p1 || vt_in_range t2 p2)%bool eqn:E.
  - apply orb_true_iff in E as [E|E]; apply vin in E; lia.
  - apply orb_false_iff in E as [E1 E2]. apply vin_false in E1, E2. exists true. split; [reflexivity|]. split; [|reflexivity].
    intros _ k K. rewrite !vat_out by lia. reflexivity.
  - destruct (Nat.eqb_spec (vt_read_at t1 p1) (vt_read_at t2 p2)) as [Q|Q].
    + destruct (IH (p1 + -1) (p2 + -1)) as (b & Eb & Hb).
      { apply orb_true_iff in E as [E|E]; apply vin in E; lia. } { lia. } { lia. }
      exists b. split; [exact Eb|]. rewrite Hb. split; intros H k K.
      * destruct (Z.eq_dec k 0) as [-> |]; [rewrite !Z.sub_0_r; exact Q|]. specialize (H (k - 1) ltac:(lia)).
        replace (p1 + -1 - (k - 1)) with (p1 - k) in H by lia. replace (p2 + -1 - (k - 1)) with (p2 - k) in H by lia. exact H.
      * specialize (H (k + 1) ltac:(lia)). replace (p1 + -1 - k) with (p1 - (k + 1)) by lia. replace (p2 + -1 - k) with (p2 - (k + 1)) by lia. exact H.
    + exists false. split; [reflexivity|]. split; [discriminate|]. intros H. specialize (H 0 ltac:(lia)). rewrite !Z.sub_0_r in H. contradiction.
  - apply orb_false_iff in E as [E1 E2]. apply vin_false in E1, E2. exists true. split; [reflexivity|]. split; [|reflexivity].
    intros _ k K. rewrite !vat_out by lia. reflexivity.
Qed.
Lemma sections_spec t1 t2 : forall n p, cpp_sections t1 t2 p n = true <-> forall k, 0 <= k < Z.of_nat n -> vt_read_at t1 (p + k) = vt_read_at t2 (p + k).
Proof.
  induction n as [|n IH]; intros p; cbn [cpp_sections].
  - split; [intros; lia|reflexivity].
  - destruct (Nat.eqb_spec (vt_read_at t1 p) (vt_read_at t2 p)) as [Q|Q].
    + rewrite IH. split; intros H k K.
      * destruct (Z.eq_dec k 0) as [-> |]; [rewrite !Z.add_0_r; exact Q|]. specialize (H (k - 1) ltac:(lia)).
        replace (p + 1 + (k - 1)) with (p + k) in H by lia. exact H.
      * specialize (H (k + 1) ltac:(lia)). replace (p + 1 + k) with (p + (k + 1)) by lia. exact H.
    + split; [discriminate|]. intros H. specialize (H 0 ltac:(lia)). rewrite !Z.add_0_r in H. contradiction.
Qed.

Lemma vrel_hull t c : vrel t c -> vhull t (hd c) (hd c).
Proof. intros (H1 & H2 & _). unfold vt_position in H2. unfold vhull, vlen. lia. Qed.

Lemma recur_ok init sim c d lo hi : srel init c -> srel sim d -> lo <= hd c <= hi -> lo <= hd d <= hi -> vhull (cs_tape sim) lo hi ->
  exists b, cpp_recur init lo hi sim = Some b /\ (b = true <-> chk c d lo hi).
Proof.
  intros (S1 & V1) (S2 & V2) B1 B2 (H1 & H2). pose proof (vrel_hull _ _ V1) as (G1 & G2).
  destruct V1 as (I1 & P1 & A1), V2 as (I2 & P2 & A2). unfold cpp_recur. rewrite S1, S2, P1, P2. cbn [sstate_eqb].
  destruct (Nat.eqb_spec (st d) (st c)) as [E|E].
  2:{ exists false. split; [reflexivity|]. split; [discriminate|]. intros (X & _). contradiction. }
  unfold chk. set (o := hd d - hd c). destruct (Z.gtb_spec o 0) as [Lt|Lt]; [|destruct (Z.ltb_spec o 0) as [Lt'|Lt']].
  - unfold cpp_half_equal, cpp_half_fuel. cbn [Z.gtb Z.compare].
    destruct (half_right (cs_tape init) (cs_tape sim) _ lo (lo + o) (le_n _) ltac:(lia) ltac:(unfold vlen, o in *; lia)) as (b & Eb & Hb).
    exists b. split; [exact Eb|]. rewrite Hb. split.
    + intros H. split; [exact E|]. intros z (Z1 & _). specialize (H (z - lo) ltac:(lia)).
      rewrite A1, A2 in H. replace (lo + (z - lo)) with z in H by lia. replace (lo + o + (z - lo)) with (z + o) in H by lia. exact H.
    + intros (_ & H) x X. rewrite A1, A2. specialize (H (lo + x)). replace (lo + o + x) with (lo + x + o) by lia. apply H.
      unfold region. repeat split; intros; lia.
  - unfold cpp_half_equal, cpp_half_fuel. cbn [Z.gtb Z.compare].
    destruct (half_left (cs_tape init) (cs_tape sim) _ hi (hi + o) (le_n _) ltac:(lia) ltac:(unfold vlen, o in *; lia)) as (b & Eb & Hb).
    exists b. split; [exact Eb|]. rewrite Hb. split.
    + intros H. split; [exact E|]. intros z (_ & Z1 & _). specialize (H (hi - z) ltac:(lia)).
      rewrite A1, A2 in H. replace (hi - (hi - z)) with z in H by lia. replace (hi + o - (hi - z)) with (z + o) in H by lia. exact H.
    + intros (_ & H) x X. rewrite A1, A2. specialize (H (hi - x)). replace (hi + o - x) with (hi - x + o) by lia. apply H.
      unfold region. repeat split; intros; lia.
  - assert (O0 : o = 0) by lia. eexists. split; [reflexivity|]. rewrite sections_spec. split.
    + intros H. split; [exact E|]. intros z (_ & _ & Z1). specialize (H (z - lo) ltac:(lia)).
      rewrite A1, A2 in H. replace (lo + (z - lo)) with z in H by lia. now rewrite O0, Z.add_0_r.
    + intros (_ & H) x X. rewrite A1, A2. rewrite O0 in H. rewrite H by (unfold region; repeat split; intros; lia). now rewrite Z.add_0_r.
Qed.

Lemma move_hull t d l r : vhull t l r -> vhull (vt_move t d) l r.
Proof.
  unfold vhull, vlen, vt_move. intros (H1 & H2). destruct (v_index t + dz d <? 0); [|destruct (Z.of_nat (length (v_cells t)) <=? v_index t + dz d)];
    cbn [v_cells v_start]; rewrite ?app_length, ?repeat_length; unfold unit_size; lia.
Qed.
Lemma step_hull tm s s' l r : cs_step_safe tm s = Some s' -> vhull (cs_tape s) l r -> vhull (cs_tape s') l r.
Proof.
  unfold cs_step_safe. destruct (cs_state s) as [q|]; [|discriminate]. destruct (vt_read (cs_tape s)) as [a|]; [|discriminate].
  destruct (c_lookup tm q a) as [x|]; [|discriminate]. intros [= <-] H. cbn [cs_tape]. apply move_hull.
  unfold vhull, vlen, vt_write in *. cbn [v_cells v_start]. rewrite list_set_length. exact H.
Qed.

Section Detect.
  Variables (n m : nat) (tm : cpp_tm).
  Hypothesis Hn : (1 <= n)%nat.
  Hypothesis Hm : (1 <= m)%nat.
  Hypothesis W : wf_trans n m (c_trans tm).
  Notation T := (table_of (to_tab (c_trans tm))).
  Notation run k := (steps T k initial).

  (** the simulator after [k] steps, not halted *)
  Definition at_step (s : csim) (k : nat) (c : config) : Prop := srel s c /\ cs_steps s = k /\ run k = Some c.
  (** halted by step [k] *)
  Definition stopped (s : csim) : Prop :=
    cs_state s = SHalt /\ exists q a b t, cs_last s = Some (q, a) /\ halts_at T initial (cs_steps s) q a b t.

  Lemma at_range s k c : at_step s k c -> (st c < n)%nat /\ forall z, (tp c z < m)%nat.
  Proof.
    intros (_ & _ & E). apply (in_range_steps n m T (wf_in_range _ _ _ W) k initial c); [simpl; lia|intros z; simpl; lia|exact E].
  Qed.
  Lemma one_step s k c : at_step s k c -> exists s', cs_step tm s = Some s' /\
    (forall l r, vhull (cs_tape s) l r -> vhull (cs_tape s') l r) /\
    match step T c with
    | Some c' => at_step s' (S k) c'
    | None => stopped s' /\ cs_steps s' = S k
    end.
  Proof.
    intros H. destruct (at_range _ _ _ H) as (Hq & Ha). destruct H as (Hs & Hk & Hr).
    destruct (step_safe_spec n m tm s c W Hs Hq Ha) as (s' & E & E1 & E2 & E3).
    exists s'. unfold cs_step, cs_halted. rewrite (proj1 Hs). split; [exact E|]. split; [intros l r; now apply (step_hull tm)|].
    unfold step. destruct (T (st c) (tp c (hd c))) as [w d q|w d b] eqn:ET.
    - split; [apply E3|]. split; [lia|]. rewrite steps_S, Hr. unfold step. now rewrite ET.
    - split; [|lia]. split; [apply E3|]. exists (st c), (tp c (hd c)), b, (put (tp c) (hd c) w). split; [exact E2|]. exists k, c, w, d. rewrite E1, Hk. repeat split; auto.
  Qed.

  Definition no_lr_cpp (k : nat) : Prop := forall j, (0 < j <= k)%nat -> ~ lin_recurrent T k j.

  Lemma inner_spec init s c : at_step init s c -> forall fuel i lo hi sim d, at_step sim (s + i) d -> (i <= s)%nat -> (s - i <= fuel)%nat ->
    span T s i lo hi -> vhull (cs_tape sim) lo hi -> (forall j, (0 < j <= i)%nat -> ~ lin_recurrent T s j) ->
    match cpp_inner tm fuel init lo hi sim with
    | None => False
    | Some (InHalt s') => stopped s' /\ (cs_steps s' <= 2 * s)%nat
    | Some (InRec s') => exists p d', (0 < p <= s)%nat /\ at_step s' (s + p) d' /\ lin_recurrent T s p /\ (forall j, (0 < j < p)%nat -> ~ lin_recurrent T s j)
    | Some (InReset s') => exists d', at_step s' (2 * s) d' /\ no_lr_cpp s
    end.
  Proof.
    intros SI. assert (NI : cs_steps init = s) by apply SI. assert (Rc : run s = Some c) by apply SI.
    induction fuel as [|fuel IH]; intros i lo hi sim d SS IL F SP HU NL; cbn [cpp_inner];
      assert (NS : cs_steps sim = (s + i)%nat) by apply SS; rewrite NI, NS; change (s + (s + 0))%nat with (2 * s)%nat.
    - destruct (Nat.ltb_spec (s + i) (2 * s)) as [Lt|Lt]; [lia|]. assert (i = s) as -> by lia.
      replace (s + s)%nat with (2 * s)%nat in * by lia. exists d. split; [exact SS|exact NL].
    - destruct (Nat.ltb_spec (s + i) (2 * s)) as [Lt|Lt].
      2:{ assert (i = s) as -> by lia. replace (s + s)%nat with (2 * s)%nat in * by lia. exists d. split; [exact SS|exact NL]. }
      destruct (one_step _ _ _ SS) as (sim' & -> & HU' & O'). assert (Rd : run (s + i) = Some d) by apply SS.
      destruct (step T d) as [d'|] eqn:Ed.
      2:{ destruct O' as (O' & K). unfold cs_halted. rewrite (proj1 O'). split; [exact O'|lia]. }
      replace (S (s + i)) with (s + S i)%nat in O' by lia. unfold cs_halted. rewrite (proj1 (proj1 O')).
      assert (P' : vt_position (cs_tape sim') = hd d') by apply O'. rewrite P'. assert (Rd' : run (s + S i) = Some d') by apply O'.
      pose proof (span_S T s i lo hi d' SP Rd') as SP'.
      assert (HU2 : vhull (cs_tape sim') (Z.min lo (hd d')) (Z.max hi (hd d'))).
      { destruct (HU' _ _ HU) as [A B]. destruct (vrel_hull _ _ (proj2 (proj1 O'))) as [A' B']. split; lia. }
      destruct (recur_ok init sim' c d' _ _ (proj1 SI) (proj1 O') (proj1 SP' 0%nat c ltac:(lia) ltac:(rewrite Nat.add_0_r; exact Rc))
        (proj1 SP' (S i) d' ltac:(lia) Rd') HU2) as (b & -> & Hb).
      destruct b.
      + exists (S i), d'. split; [lia|]. split; [exact O'|].
        split; [apply (chk_lr T s (S i) c d' _ _ ltac:(lia) Rc Rd' SP'); apply Hb; reflexivity|]. intros j J; apply NL; lia.
      + apply (IH (S i) _ _ sim' d' O'); auto; try lia. intros j J. destruct (Nat.eq_dec j (S i)) as [-> |]; [|apply NL; lia].
        intros LR0. pose proof (lr_chk T s (S i) c d' _ _ LR0 Rc Rd' SP') as K. apply Hb in K. discriminate.
  Qed.

  Definition res_ok (max k : nat) (r : lr_res) : Prop :=
    match r with
    | LRHalt last ref h => (exists q a b t, last = Some (q, a) /\ halts_at T initial h q a b t) /\ (ref < max)%nat /\ (h <= 2 * ref)%nat /\ exists i, ref = (k * 2 ^ i)%nat
    | LRRec s p o h => (s < max)%nat /\ (0 < p <= s)%nat /\ h = (s + p)%nat /\ lin_recurrent T s p /\ (forall j, (0 < j < p)%nat -> ~ lin_recurrent T s j) /\
        exists c d, run s = Some c /\ run (s + p) = Some d /\ o = hd d - hd c
    | LRNone ref h => exists j, h = (k * 2 ^ j)%nat /\ (max <= h)%nat /\ run h <> None /\ (forall i, (i < j)%nat -> no_lr_cpp (k * 2 ^ i)) /\
        (forall i, (i < j)%nat -> k * 2 ^ i < max)%nat
    end.

  Lemma outer_spec max : forall fuel k ref sim d, at_step sim k d -> (0 < k)%nat -> (max - k <= fuel)%nat ->
    exists r, cpp_outer tm max fuel ref sim = Some r /\ res_ok max k r /\
      (forall s, r = LRNone None s -> ref = None /\ (max <= k)%nat).
  Proof.
    induction fuel as [|fuel IH]; intros k ref sim d SS K F; cbn [cpp_outer]; assert (NS : cs_steps sim = k) by apply SS;
      assert (Rd : run k = Some d) by apply SS; rewrite NS; destruct (Nat.ltb_spec k max) as [Lt|Lt]; try lia.
    1,3: (eexists; split; [reflexivity|]; split; [|intros s [= -> _]; auto]; exists 0%nat; cbn [Nat.pow]; rewrite Nat.mul_1_r, Rd;
      repeat split; auto; try discriminate; intros; lia).
    assert (PS : vt_position (cs_tape sim) = hd d) by apply SS. rewrite PS.
    assert (SS0 : at_step sim (k + 0) d) by (rewrite Nat.add_0_r; exact SS).
    pose proof (inner_spec sim k d SS k 0%nat (hd d) (hd d) sim d SS0 ltac:(lia) ltac:(lia) (span_0 T k d Rd) (vrel_hull _ _ (proj2 (proj1 SS)))
      ltac:(intros; lia)) as I.
    destruct (cpp_inner tm k sim (hd d) (hd d) sim) as [[s'|s'|s']|]; [| | |destruct I].
    - eexists. split; [reflexivity|]. split; [|intros s [=]]. destruct I as ((_ & I) & Hb). split; [exact I|]. split; [exact Lt|]. split; [exact Hb|]. exists 0%nat. cbn. lia.
    - destruct I as (p & d' & P & SS' & LR0 & MIN). eexists. split; [reflexivity|]. split; [|intros s [=]].
      assert (NS' : cs_steps s' = (k + p)%nat) by apply SS'. assert (PS' : vt_position (cs_tape s') = hd d') by apply SS'.
      assert (Rd' : run (k + p) = Some d') by apply SS'. rewrite NS', PS'. replace (k + p - k)%nat with p by lia.
      split; [exact Lt|]. split; [exact P|]. split; [reflexivity|]. split; [exact LR0|]. split; [exact MIN|]. exists d, d'. auto.
    - destruct I as (d' & SS' & NL). destruct (IH (2 * k)%nat (Some k) s' d' SS' ltac:(lia) ltac:(lia)) as (r & E & H1 & H2).
      exists r. split; [exact E|]. split; [|intros s Hs; destruct (H2 s Hs); discriminate].
      assert (EQ : forall j, (2 * k * 2 ^ j = k * 2 ^ S j)%nat) by (intros j; cbn [Nat.pow]; lia).
      destruct r as [last rf h|s p o h|rf h]; [|exact H1|].
      { destruct H1 as (A & B & C & j & D). repeat (split; [assumption|]). exists (S j). now rewrite <- EQ. } destruct H1 as (j & A & B & C & D & D2). exists (S j). rewrite <- EQ.
      split; [exact A|]. split; [exact B|]. split; [exact C|]. split.
      + intros [|i] I; [cbn; rewrite Nat.mul_1_r; exact NL|]. rewrite <- EQ. apply D. lia.
      + intros [|i] I; [cbn; lia|]. rewrite <- EQ. apply D2. lia.
  Qed.

  (** the whole function *)
  Lemma detect_spec max : exists r, lr_detect tm max = Some r /\
    ((2 <= max)%nat -> res_ok max 1 r /\ forall s, r <> LRNone None s) /\ ((max <= 1)%nat -> r = LRNone None 1).
  Proof.
    assert (S0 : at_step cs_init 0 initial) by (split; [apply srel_init|split; reflexivity]).
    unfold lr_detect. destruct (one_step _ _ _ S0) as (s1 & -> & _ & H). destruct (step T initial) as [c1|] eqn:E1.
    - destruct (outer_spec max max 1%nat None s1 c1 H ltac:(lia) ltac:(lia)) as (r & E & R1 & R2). exists r. split; [exact E|]. split.
      + intros Hx. split; [exact R1|]. intros s ->. destruct (R2 s eq_refl). lia.
      + intros Hx. assert (NS : cs_steps s1 = 1%nat) by apply H. destruct max as [|[|x]]; [| |lia]; cbn [cpp_outer] in E; rewrite NS in E;
          cbn in E; congruence.
    - destruct H as (H & K). destruct max as [|[|x]]; cbn [cpp_outer]; rewrite K.
      + eexists. split; [reflexivity|]. split; [lia|reflexivity].
      + eexists. split; [reflexivity|]. split; [lia|reflexivity].
      + cbn [Nat.ltb Nat.leb cpp_inner]. rewrite K. cbn [Nat.ltb Nat.leb Nat.mul Nat.add]. unfold cs_step, cs_halted. rewrite (proj1 H).
        rewrite (proj1 H). eexists. split; [reflexivity|]. split; [|lia]. intros _. split; [|discriminate].
        destruct H as (H1 & H2). split; [exact H2|]. rewrite K. split; [lia|]. split; [lia|]. exists 0%nat. reflexivity.
  Qed.
End Detect.

(** ** The number of steps that are made before the function gives up *)

Definition lr_bound (max : nat) : nat := if Nat.leb max 1 then 0%nat else (2 ^ Nat.log2_up max)%nat.
Lemma bound_pow max j : (2 <= max)%nat -> (max <= 2 ^ j)%nat -> (forall i, (i < j)%nat -> 2 ^ i < max)%nat -> (2 ^ j = lr_bound max)%nat.
Proof.
  intros H1 H2 H3. unfold lr_bound. destruct (Nat.leb_spec max 1); [lia|]. f_equal. destruct (Nat.log2_up_spec max ltac:(lia)) as (A & B).
  destruct (Nat.lt_trichotomy j (Nat.log2_up max)) as [Lt|[E|Lt]]; [|exact E|].
  - exfalso. assert (2 ^ j <= 2 ^ Nat.pred (Nat.log2_up max))%nat by (apply Nat.pow_le_mono_r; lia). lia.
  - specialize (H3 _ Lt). lia.
Qed.
Lemma bound_below max i : (2 ^ i < max)%nat -> (2 * 2 ^ i <= lr_bound max)%nat.
Proof.
  intros H. pose proof (Nat.pow_nonzero 2 i ltac:(lia)). unfold lr_bound. destruct (Nat.leb_spec max 1); [lia|].
  destruct (Nat.log2_up_spec max ltac:(lia)) as (A & B). rewrite <- Nat.pow_succ_r'. apply Nat.pow_le_mono_r; [lia|].
  apply (Nat.pow_lt_mono_r_iff 2); lia.
Qed.

Definition lr_decide (max : nat) (tm : cpp_tm) : option (nat * nat) :=
  match lr_detect tm max with Some (LRHalt last _ _) => last | _ => None end.

Lemma nonhalting_stop T k : nonhalting T initial -> stop_at T k initial = None.
Proof. intros H. apply stop_at_none. destruct (steps T k initial) as [c|] eqn:E; [eauto|]. elim (H k E). Qed.

Lemma decide_spec n m max tm : (1 <= n)%nat -> (1 <= m)%nat -> wf_trans n m (c_trans tm) ->
  lr_decide max tm = lb_verdict (lr_bound max) (to_tab (c_trans tm)).
Proof.
  intros Hn Hm W. destruct (detect_spec n m tm Hn Hm W max) as (r & E & R1 & R2). unfold lr_decide, lb_verdict. rewrite E.
  destruct (Nat.le_gt_cases max 1) as [Hx|Hx].
  - rewrite (R2 Hx). unfold lr_bound. destruct (Nat.leb_spec max 1); [reflexivity|lia].
  - destruct (R1 Hx) as (H & _). destruct r as [last ref h|s p o h|ref h].
    + destruct H as ((q & a & b & t & -> & Hh) & H1 & H2 & i & H3).
      assert (Hb : (h <= lr_bound max)%nat).
      { pose proof (bound_below max i ltac:(lia)). lia. }
      rewrite (halts_stop_at _ _ _ _ _ _ _ Hh Hb). reflexivity.
    + destruct H as (_ & _ & _ & H & _). rewrite (nonhalting_stop _ _ (lr_nonhalting _ _ _ H)). reflexivity.
    + destruct H as (j & A & B & C & _ & D). rewrite Nat.mul_1_l in A.
      assert (Eb : (2 ^ j = lr_bound max)%nat) by (apply bound_pow; [lia|lia|intros i Hi; specialize (D i Hi); lia]).
      rewrite <- Eb, <- A. assert (X : stop_at (table_of (to_tab (c_trans tm))) h initial = None).
      { apply stop_at_none. destruct (steps (table_of (to_tab (c_trans tm))) h initial) as [c|] eqn:Es; [eauto|now elim C]. }
      now rewrite X.
Qed.
