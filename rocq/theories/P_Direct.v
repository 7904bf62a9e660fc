(** * The direct tape denotes an unbounded array; the direct simulator is exact *)
Require Import ZArith List Lia Bool Arith.
From Verif Require Import Spec_TM M_Turing_Machine M_Direct P_Stream P_SimLimited P_Macro.
Import ListNotations.
Open Scope Z_scope.

Lemma py_index_in len i : 0 <= i < len -> py_index len i = Some (Z.to_nat i).
Proof.
  intros H. unfold py_index.
  rewrite (proj2 (Z.leb_le 0 i)), (proj2 (Z.ltb_lt i len)) by lia. reflexivity.
Qed.

Lemma py_get_in {A} (l : list A) i :
  0 <= i < Z.of_nat (length l) -> py_get l i = nth_error l (Z.to_nat i).
Proof. intros H. unfold py_get. now rewrite py_index_in. Qed.

Lemma py_set_in {A} (l : list A) i v :
  0 <= i < Z.of_nat (length l) -> py_set l i v = Some (lset l (Z.to_nat i) v).
Proof. intros H. unfold py_set. now rewrite py_index_in. Qed.

Definition dt_ok (t : dtape) : Prop := 0 <= dt_index t < Z.of_nat (length (dt_cells t)).

(** the array denoted by a tape *)
Definition dt_at (t : dtape) (z : Z) : nat :=
  let i := dt_pos2index t z in
  if (0 <=? i) && (i <? Z.of_nat (length (dt_cells t)))
  then nth (Z.to_nat i) (dt_cells t) (dt_init t) else dt_init t.

Lemma in_range_true i len : 0 <= i < len -> (0 <=? i) && (i <? len) = true.
Proof.
  intros H. rewrite (proj2 (Z.leb_le 0 i)), (proj2 (Z.ltb_lt i len)) by lia. reflexivity.
Qed.
Lemma in_range_iff i len : (0 <=? i) && (i <? len) = true <-> 0 <= i < len.
Proof. rewrite andb_true_iff, Z.leb_le, Z.ltb_lt. tauto. Qed.
Lemma in_range_false i len : ~ (0 <= i < len) -> (0 <=? i) && (i <? len) = false.
Proof.
  intros H. destruct ((0 <=? i) && (i <? len)) eqn:E; auto.
  apply in_range_iff in E. lia.
Qed.

Lemma dt_read_pos_at t z : dt_read_pos t z = Some (dt_at t z).
Proof.
  unfold dt_read_pos, dt_at. set (i := dt_pos2index t z).
  destruct ((0 <=? i) && (i <? Z.of_nat (length (dt_cells t)))) eqn:E; auto.
  apply in_range_iff in E. rewrite py_get_in by assumption.
  apply nth_error_nth'. lia.
Qed.

Lemma dt_read_at t : dt_ok t -> dt_read t = Some (dt_at t (dt_position t)).
Proof.
  intros H. unfold dt_read, dt_at, dt_pos2index.
  replace (dt_position t - dt_position t + dt_index t) with (dt_index t) by lia.
  rewrite in_range_true by exact H. rewrite py_get_in by exact H.
  apply nth_error_nth'. unfold dt_ok in H. lia.
Qed.

Lemma nth_lset {A} (l : list A) i j v d :
  (i < length l)%nat -> nth j (lset l i v) d = if Nat.eqb j i then v else nth j l d.
Proof.
  revert i j. induction l as [|a l IH]; simpl; intros i j H; [lia|].
  destruct i, j; simpl; auto. apply IH. lia.
Qed.

Lemma set_at t l i v z :
  0 <= i < Z.of_nat (length (dt_cells t)) -> l = lset (dt_cells t) (Z.to_nat i) v ->
  dt_at (DTape (dt_init t) l (dt_index t) (dt_position t)) z =
  if dt_pos2index t z =? i then v else dt_at t z.
Proof.
  intros H ->. unfold dt_at, dt_pos2index; simpl. rewrite lset_length.
  set (j := z - dt_position t + dt_index t).
  destruct ((0 <=? j) && (j <? Z.of_nat (length (dt_cells t)))) eqn:E.
  - apply in_range_iff in E. rewrite nth_lset by lia.
    destruct (j =? i) eqn:E1.
    + apply Z.eqb_eq in E1. subst i. now rewrite Nat.eqb_refl.
    + apply Z.eqb_neq in E1. rewrite (proj2 (Nat.eqb_neq _ _)); auto. lia.
  - destruct (j =? i) eqn:E1; auto. apply Z.eqb_eq in E1. subst i.
    rewrite in_range_true in E by assumption. discriminate.
Qed.

Lemma dt_write_ok t v : dt_ok t ->
  exists t', dt_write t v = Some t' /\ dt_ok t' /\ dt_position t' = dt_position t /\
    dt_init t' = dt_init t /\
    dt_leftmost t' = dt_leftmost t /\ dt_rightmost t' = dt_rightmost t /\
    forall z, dt_at t' z = put (dt_at t) (dt_position t) v z.
Proof.
  intros H. unfold dt_write. rewrite py_set_in by exact H.
  eexists. split; [reflexivity|]. unfold dt_ok, dt_leftmost, dt_rightmost, dt_index2pos; simpl.
  rewrite lset_length. split; [exact H|]. repeat (split; [reflexivity|]).
  intros z. erewrite set_at; [|exact H|reflexivity]. unfold put, dt_pos2index.
  destruct (z =? dt_position t) eqn:E.
  - apply Z.eqb_eq in E. subst z. replace (_ =? _) with true; auto. symmetry. apply Z.eqb_eq. lia.
  - apply Z.eqb_neq in E. replace (_ =? _) with false; auto. symmetry. apply Z.eqb_neq. lia.
Qed.

Lemma nth_repeat_app {A} (d : A) n l j :
  nth j (repeat d n ++ l) d = if Nat.ltb j n then d else nth (j - n) l d.
Proof.
  revert j. induction n as [|n IH]; simpl; intros j.
  - now rewrite Nat.sub_0_r.
  - destruct j; auto. apply IH.
Qed.

Lemma nth_app_repeat {A} (d : A) n l j : nth j (l ++ repeat d n) d = nth j l d.
Proof.
  revert j. induction l as [|a l IH]; simpl; intros j.
  - assert (E : nth j (repeat d n) d = d).
    { revert j. induction n; destruct j; simpl; auto. }
    rewrite E. destruct j; auto.
  - destruct j; auto.
Qed.

(** [dt_expand] for the target position [p] (the head when [None]) *)
Lemma dt_expand_ok t np :
  let p := match np with None => dt_position t | Some p => p end in
  (0 < Z.of_nat (length (dt_cells t))) ->
  -1 <= dt_index t <= Z.of_nat (length (dt_cells t)) ->
  (np <> None -> dt_ok t) ->
  exists t', dt_expand t np = Some t' /\ dt_position t' = dt_position t /\
    dt_init t' = dt_init t /\ dt_ok t' /\
    dt_leftmost t' = Z.min (dt_leftmost t) p /\
    dt_rightmost t' = Z.max (dt_rightmost t) p /\
    forall z, dt_at t' z = dt_at t z.
Proof.
  intros p Hl Hi Hok. unfold dt_expand.
  set (ni := dt_index_default t np).
  assert (Hp : ni = dt_pos2index t p).
  { unfold ni, p, dt_index_default, dt_pos2index. destruct np; lia. }
  set (len := Z.of_nat (length (dt_cells t))) in *.
  destruct (ni <? 0) eqn:E1; [|destruct (len <=? ni) eqn:E2].
  - apply Z.ltb_lt in E1.
    set (t' := DTape _ _ _ _).
    assert (Hlen : Z.of_nat (length (dt_cells t')) = len - ni).
    { unfold t'; simpl. rewrite app_length, repeat_length. lia. }
    assert (Hd : dt_index_default t' np = 0).
    { unfold dt_index_default, t', dt_pos2index; simpl. destruct np; simpl.
      - unfold ni, dt_index_default, dt_pos2index in *. lia.
      - unfold ni, dt_index_default in *. lia. }
    rewrite Hd, Hlen, in_range_true by lia.
    exists t'. split; [reflexivity|]. split; [reflexivity|]. split; [reflexivity|].
    assert (Hidx : dt_index t' = dt_index t - ni) by (unfold t'; simpl; lia).
    assert (Hpos : dt_position t' = dt_position t) by reflexivity.
    split; [|split; [|split]].
    + unfold dt_ok. rewrite Hlen, Hidx.
      destruct np; [assert (dt_ok t) by (apply Hok; discriminate); unfold dt_ok in *; fold len in H; lia|].
      unfold ni, dt_index_default in *. lia.
    + unfold dt_leftmost, dt_index2pos. rewrite Hidx, Hpos.
      unfold dt_pos2index in Hp. lia.
    + unfold dt_rightmost, dt_index2pos. rewrite Hidx, Hpos, Hlen. fold len.
      unfold dt_pos2index in Hp. lia.
    + intros z. unfold dt_at, dt_pos2index. rewrite Hidx, Hpos, Hlen. fold len.
      set (j := z - dt_position t + dt_index t).
      replace (z - dt_position t + (dt_index t - ni)) with (j - ni) by (unfold j; lia).
      change (dt_init t') with (dt_init t).
      destruct ((0 <=? j) && (j <? len)) eqn:E.
      * apply in_range_iff in E. rewrite in_range_true by lia.
        unfold t'; simpl. rewrite nth_repeat_app.
        rewrite (proj2 (Nat.ltb_ge _ _)) by lia. f_equal. lia.
      * destruct ((0 <=? j - ni) && (j - ni <? len - ni)) eqn:E'; auto.
        apply in_range_iff in E'. unfold t'; simpl. rewrite nth_repeat_app.
        destruct (Nat.ltb (Z.to_nat (j - ni)) (Z.to_nat (- ni))) eqn:E3; auto.
        apply Nat.ltb_ge in E3. rewrite in_range_true in E by lia. discriminate.
  - apply Z.ltb_ge in E1. apply Z.leb_le in E2.
    set (t' := DTape _ _ _ _).
    assert (Hlen : Z.of_nat (length (dt_cells t')) = ni + 1).
    { unfold t'; simpl. rewrite app_length, repeat_length. lia. }
    assert (Hd : dt_index_default t' np = ni).
    { unfold dt_index_default, t', dt_pos2index; simpl. destruct np; reflexivity. }
    rewrite Hd, Hlen, in_range_true by lia.
    exists t'. split; [reflexivity|]. split; [reflexivity|]. split; [reflexivity|].
    assert (Hidx : dt_index t' = dt_index t) by reflexivity.
    assert (Hpos : dt_position t' = dt_position t) by reflexivity.
    split; [|split; [|split]].
    + unfold dt_ok. rewrite Hlen, Hidx.
      destruct np; [assert (dt_ok t) by (apply Hok; discriminate); unfold dt_ok in *; fold len in H; lia|].
      unfold ni, dt_index_default in *. lia.
    + unfold dt_leftmost, dt_index2pos. rewrite Hidx, Hpos.
      unfold dt_pos2index in Hp. lia.
    + unfold dt_rightmost, dt_index2pos. rewrite Hidx, Hpos, Hlen. fold len.
      unfold dt_pos2index in Hp. lia.
    + intros z. unfold dt_at, dt_pos2index. rewrite Hidx, Hpos, Hlen. fold len.
      set (j := z - dt_position t + dt_index t).
      change (dt_init t') with (dt_init t).
      unfold t'; simpl. rewrite nth_app_repeat.
      destruct ((0 <=? j) && (j <? len)) eqn:E.
      * apply in_range_iff in E. rewrite in_range_true by lia. reflexivity.
      * destruct ((0 <=? j) && (j <? ni + 1)) eqn:E'; auto.
        apply in_range_iff in E'. apply nth_overflow.
        destruct (Z_lt_le_dec j len); [rewrite in_range_true in E by lia; discriminate|]. lia.
  - apply Z.ltb_ge in E1. apply Z.leb_gt in E2.
    fold ni. rewrite in_range_true by (fold len; lia).
    exists t. split; [reflexivity|]. split; [reflexivity|]. split; [reflexivity|].
    split; [|split; [|split]].
    + destruct np; [apply Hok; discriminate|].
      unfold dt_ok. fold len. unfold ni, dt_index_default in *. lia.
    + unfold dt_leftmost, dt_index2pos. unfold dt_pos2index in Hp. lia.
    + unfold dt_rightmost, dt_index2pos. fold len. unfold dt_pos2index in Hp. lia.
    + auto.
Qed.

Lemma dt_at_move t k z :
  dt_at (DTape (dt_init t) (dt_cells t) (dt_index t + k) (dt_position t + k)) z = dt_at t z.
Proof.
  unfold dt_at, dt_pos2index; simpl.
  replace (z - (dt_position t + k) + (dt_index t + k)) with (z - dt_position t + dt_index t) by lia.
  reflexivity.
Qed.

Lemma dt_move_ok t d : dt_ok t ->
  exists t', dt_move t d = Some t' /\ dt_ok t' /\ dt_position t' = dt_position t + dz d /\
    dt_init t' = dt_init t /\
    dt_leftmost t' = Z.min (dt_leftmost t) (dt_position t + dz d) /\
    dt_rightmost t' = Z.max (dt_rightmost t) (dt_position t + dz d) /\
    forall z, dt_at t' z = dt_at t z.
Proof.
  intros H. unfold dt_move.
  set (t1 := match d with R => _ | L => _ end).
  assert (E : t1 = DTape (dt_init t) (dt_cells t) (dt_index t + dz d) (dt_position t + dz d))
    by (unfold t1; destruct d; simpl; f_equal; lia).
  unfold dt_ok in H.
  destruct (dt_expand_ok t1 None) as (t' & E' & Hp & Hi & Ho & Hl & Hr & Ha).
  - rewrite E; simpl. lia.
  - rewrite E; simpl. destruct d; simpl; lia.
  - congruence.
  - exists t'. split; [exact E'|]. split; [exact Ho|].
    rewrite E in *; simpl in *. split; [exact Hp|]. split; [exact Hi|].
    split; [|split].
    + rewrite Hl. unfold dt_leftmost, dt_index2pos; simpl. lia.
    + rewrite Hr. unfold dt_rightmost, dt_index2pos; simpl. lia.
    + intros z. rewrite Ha. apply dt_at_move.
Qed.

Lemma dt_write_pos_ok t v p : dt_ok t ->
  exists t', dt_write_pos t v p = Some t' /\ dt_ok t' /\ dt_position t' = dt_position t /\
    dt_init t' = dt_init t /\
    dt_leftmost t' = Z.min (dt_leftmost t) p /\ dt_rightmost t' = Z.max (dt_rightmost t) p /\
    forall z, dt_at t' z = put (dt_at t) p v z.
Proof.
  intros H. unfold dt_write_pos.
  destruct (dt_expand_ok t (Some p)) as (t' & E' & Hp & Hi & Ho & Hl & Hr & Ha).
  - unfold dt_ok in H. lia.
  - unfold dt_ok in H. lia.
  - auto.
  - rewrite E'. simpl in *.
    assert (Hin : 0 <= dt_pos2index t' p < Z.of_nat (length (dt_cells t'))).
    { unfold dt_expand, dt_index_default in E'.
      match type of E' with (if ?x then _ else _) = _ => destruct x eqn:E; [|discriminate] end.
      injection E' as <-. apply in_range_iff in E. exact E. }
    rewrite py_set_in by exact Hin. eexists. split; [reflexivity|].
    unfold dt_ok, dt_leftmost, dt_rightmost, dt_index2pos in *; simpl.
    rewrite lset_length. split; [exact Ho|]. split; [exact Hp|]. split; [exact Hi|].
    split; [exact Hl|]. split; [exact Hr|].
    intros z. erewrite set_at; [|exact Hin|reflexivity]. unfold put. rewrite Ha.
    unfold dt_pos2index. destruct (z =? p) eqn:E.
    + apply Z.eqb_eq in E. subst z. now rewrite Z.eqb_refl.
    + apply Z.eqb_neq in E. rewrite (proj2 (Z.eqb_neq _ _)); auto. lia.
Qed.

Lemma dt_at_nonzero_list t :
  exists l : list Z, NoDup l /\ (forall z, In z l <-> dt_at t z <> dt_init t) /\
    length l = dt_count_nonzero t.
Proof.
  set (zs := map (fun i => dt_index2pos t (Z.of_nat i)) (seq 0 (length (dt_cells t)))).
  exists (filter (fun z => negb (Nat.eqb (dt_at t z) (dt_init t))) zs). split; [|split].
  - apply NoDup_filter. unfold zs. apply FinFun.Injective_map_NoDup; [|apply seq_NoDup].
    intros a b. unfold dt_index2pos. lia.
  - intros z. rewrite filter_In, negb_true_iff, Nat.eqb_neq. split; [tauto|].
    intros Hz. split; auto. unfold zs. apply in_map_iff.
    unfold dt_at in Hz. set (i := dt_pos2index t z) in *.
    destruct ((0 <=? i) && (i <? Z.of_nat (length (dt_cells t)))) eqn:E; [|congruence].
    apply in_range_iff in E. exists (Z.to_nat i). split.
    + unfold dt_index2pos, i, dt_pos2index in *. lia.
    + apply in_seq. lia.
  - unfold dt_count_nonzero, zs.
    assert (G : forall cells k, (forall j, (j < length cells)%nat ->
                 dt_at t (dt_index2pos t (Z.of_nat (k + j))) = nth j cells (dt_init t)) ->
      length (filter (fun z => negb (Nat.eqb (dt_at t z) (dt_init t)))
               (map (fun i => dt_index2pos t (Z.of_nat i)) (seq k (length cells)))) =
      length (filter (fun s => negb (Nat.eqb s (dt_init t))) cells)).
    { induction cells as [|a cells IH]; simpl; intros k Hk; auto.
      pose proof (Hk O ltac:(lia)) as H0. simpl in H0. rewrite Nat.add_0_r in H0. rewrite H0.
      assert (H1 : forall j, (j < length cells)%nat ->
         dt_at t (dt_index2pos t (Z.of_nat (S k + j))) = nth j cells (dt_init t)).
      { intros j Hj. specialize (Hk (S j) ltac:(lia)). simpl in Hk.
        now rewrite <- plus_n_Sm in Hk. }
      destruct (negb (Nat.eqb a (dt_init t))); simpl; rewrite IH; auto. }
    apply G. intros j Hj. simpl. unfold dt_at, dt_pos2index, dt_index2pos.
    replace (_ - dt_position t + dt_index t) with (Z.of_nat j) by lia.
    rewrite in_range_true by lia. now rewrite Nat2Z.id.
Qed.

(** ** sequences of operations *)
Inductive dop := OpWrite (v : nat) | OpMove (d : dir) | OpWritePos (v : nat) (p : Z).

Definition dt_op (t : dtape) (o : dop) : option dtape :=
  match o with
  | OpWrite v => dt_write t v
  | OpMove d => dt_move t d
  | OpWritePos v p => dt_write_pos t v p
  end.

Fixpoint dt_ops (t : dtape) (os : list dop) : option dtape :=
  match os with
  | [] => Some t
  | o :: os => match dt_op t o with Some t => dt_ops t os | None => None end
  end.

(** the specification: a position and an unbounded array *)
Definition aop (a : Z * (Z -> nat)) (o : dop) : Z * (Z -> nat) :=
  let '(p, f) := a in
  match o with
  | OpWrite v => (p, put f p v)
  | OpMove d => (p + dz d, f)
  | OpWritePos v q => (p, put f q v)
  end.
Definition aops (a : Z * (Z -> nat)) (os : list dop) := fold_left aop os a.

(** positions visited or written, starting from position [p] *)
Fixpoint touched (p : Z) (os : list dop) : list Z :=
  match os with
  | [] => [p]
  | OpWrite _ :: os => p :: touched p os
  | OpMove d :: os => p :: touched (p + dz d) os
  | OpWritePos _ q :: os => p :: q :: touched p os
  end.

Lemma dt_new_ok b : dt_ok (dt_new b).
Proof. unfold dt_ok, dt_new; simpl. lia. Qed.
Lemma dt_new_at b z : dt_at (dt_new b) z = b.
Proof.
  unfold dt_at, dt_new, dt_pos2index; simpl.
  destruct ((0 <=? z - 0 + 0) && (z - 0 + 0 <? 1)) eqn:E; auto.
  apply in_range_iff in E. replace z with 0 by lia. reflexivity.
Qed.

Lemma touched_here p os : In p (touched p os).
Proof. destruct os as [|[] os]; simpl; auto. Qed.

Definition hull_min (l : list Z) (m : Z) := In m l /\ forall x, In x l -> m <= x.
Definition hull_max (l : list Z) (m : Z) := In m l /\ forall x, In x l -> x <= m.

Lemma dt_ops_ok os : forall t p f,
  dt_ok t -> dt_position t = p -> (forall z, dt_at t z = f z) ->
  exists t', dt_ops t os = Some t' /\ dt_ok t' /\ dt_init t' = dt_init t /\
    dt_position t' = fst (aops (p, f) os) /\
    (forall z, dt_at t' z = snd (aops (p, f) os) z) /\
    hull_min (dt_leftmost t :: touched p os) (dt_leftmost t') /\
    hull_max (dt_rightmost t :: touched p os) (dt_rightmost t').
Proof.
  induction os as [|o os IH]; intros t p f Ho Hp Hf.
  - exists t. simpl. unfold hull_min, hull_max. simpl.
    repeat (split; [solve [auto]|]). split; (split; [auto|]).
    + intros x [<-|[<-|[]]]; [lia|]. unfold dt_leftmost, dt_index2pos, dt_ok in *. lia.
    + intros x [<-|[<-|[]]]; [lia|]. unfold dt_rightmost, dt_index2pos, dt_ok in *. lia.
  - assert (Hlp : dt_leftmost t <= p) by (unfold dt_leftmost, dt_index2pos, dt_ok in *; lia).
    assert (Hrp : p <= dt_rightmost t) by (unfold dt_rightmost, dt_index2pos, dt_ok in *; lia).
    assert (exists t1, dt_op t o = Some t1 /\ dt_ok t1 /\ dt_init t1 = dt_init t /\
       dt_position t1 = fst (aop (p, f) o) /\ (forall z, dt_at t1 z = snd (aop (p, f) o) z) /\
       exists q, In q (touched p (o :: os)) /\
        dt_leftmost t1 = Z.min (dt_leftmost t) q /\ dt_rightmost t1 = Z.max (dt_rightmost t) q /\
        forall x, In x (touched p (o :: os)) <->
                  x = p \/ x = q \/ In x (touched (fst (aop (p, f) o)) os))
      as (t1 & E1 & Ho1 & Hi1 & Hp1 & Hf1 & q & Hq & Hl1 & Hr1 & Hin).
    { destruct o as [v|d|v q]; simpl.
      - destruct (dt_write_ok t v Ho) as (t1 & E & H1 & H2 & H3 & H4 & H5 & H6).
        exists t1. split; [exact E|]. split; [exact H1|]. split; [exact H3|]. split; [congruence|]. split.
        + intros z. rewrite H6. unfold put. rewrite Hf, Hp. reflexivity.
        + exists p. split; [now left|]. split; [lia|]. split; [lia|]. intros x. simpl. intuition.
      - destruct (dt_move_ok t d Ho) as (t1 & E & H1 & H2 & H3 & H4 & H5 & H6).
        exists t1. split; [auto|]. split; [auto|]. split; [auto|].
        split; [congruence|]. split; [intros z; rewrite H6; apply Hf|].
        exists (p + dz d). rewrite Hp in *. pose proof (touched_here (p + dz d) os).
        split; [simpl; auto|]. split; [auto|]. split; [auto|].
        intros x. simpl. split; intuition; subst; auto.
      - destruct (dt_write_pos_ok t v q Ho) as (t1 & E & H1 & H2 & H3 & H4 & H5 & H6).
        exists t1. split; [exact E|]. split; [exact H1|]. split; [exact H3|]. split; [congruence|]. split.
        + intros z. rewrite H6. unfold put. rewrite Hf. reflexivity.
        + exists q. split; [right; now left|]. split; [auto|]. split; [auto|].
          intros x. simpl. intuition. }
    destruct (IH t1 (fst (aop (p, f) o)) (snd (aop (p, f) o)) Ho1 Hp1 Hf1)
      as (t' & E' & Ho' & Hi' & Hp' & Hf' & Hl' & Hr').
    rewrite <- surjective_pairing in Hp', Hf'.
    exists t'. cbn [dt_ops]. rewrite E1. split; [exact E'|]. split; [exact Ho'|].
    split; [congruence|]. split; [exact Hp'|]. split; [exact Hf'|].
    rewrite Hl1 in Hl'. rewrite Hr1 in Hr'. unfold hull_min, hull_max in *.
    destruct Hl' as [Hl' Hlx], Hr' as [Hr' Hrx].
    assert (A1 := Hlx _ (or_introl eq_refl)). assert (A2 := Hrx _ (or_introl eq_refl)).
    split; split.
    + destruct Hl' as [Hl'|Hl'].
      * destruct (Z.min_spec (dt_leftmost t) q) as [[_ E]|[_ E]]; rewrite E in Hl'.
        -- left. auto.
        -- right. now rewrite <- Hl'.
      * right. apply Hin. auto.
    + intros x [<-|Hx]; [lia|]. apply Hin in Hx. destruct Hx as [->|[->|Hx]]; [lia|lia|].
      apply Hlx. now right.
    + destruct Hr' as [Hr'|Hr'].
      * destruct (Z.max_spec (dt_rightmost t) q) as [[_ E]|[_ E]]; rewrite E in Hr'.
        -- right. now rewrite <- Hr'.
        -- left. auto.
      * right. apply Hin. auto.
    + intros x [<-|Hx]; [lia|]. apply Hin in Hx. destruct Hx as [->|[->|Hx]]; [lia|lia|].
      apply Hrx. now right.
Qed.

(** ** the simulator *)

Definition dsim_running (T : table) (n m : nat) (s : dsim) : Prop :=
  ds_halted s = false /\ ds_halt s = None /\
  exists c, steps T (ds_step_num s) initial = Some c /\
    ds_state s = SRun (st c) /\ (st c < n)%nat /\ dt_position (ds_tape s) = hd c /\
    (forall z, dt_at (ds_tape s) z = tp c z) /\ forall z, (tp c z < m)%nat.

Definition dsim_stopped (T : table) (s : dsim) : Prop :=
  ds_halted s = true /\
  exists q x b t k c, ds_halt s = Some (k, SRun q, x) /\
    halts_at T initial (ds_step_num s) q x b t /\ score t k /\
    ds_state s = SHalt /\ (forall z, dt_at (ds_tape s) z = t z) /\
    steps T (pred (ds_step_num s)) initial = Some c /\
    exists w d, T q x = Stop w d b /\ dt_position (ds_tape s) = hd c + dz d.

Definition dsim_ok (T : table) (n m : nat) (s : dsim) : Prop :=
  dt_ok (ds_tape s) /\ dt_init (ds_tape s) = 0%nat /\
  (dsim_running T n m s \/ dsim_stopped T s).

Lemma ds_new_ok n m tab : wf_ttable n m tab ->
  dsim_ok (table_of tab) n m (ds_new (simple_machine tab)).
Proof.
  intros (Hn & Hm & _). split; [apply dt_new_ok|]. split; [reflexivity|]. left.
  split; [reflexivity|]. split; [reflexivity|]. exists initial.
  split; [reflexivity|]. split; [reflexivity|]. split; [exact Hn|]. split; [reflexivity|].
  split; [intros z; apply dt_new_at|]. intros z. exact Hm.
Qed.

Lemma ds_step_ok n m tab s : wf_ttable n m tab ->
  dsim_ok (table_of tab) n m s ->
  exists s', ds_step (simple_machine tab) s = Some s' /\ dsim_ok (table_of tab) n m s' /\
    (ds_halted s = true -> s' = s) /\
    (ds_halted s = false -> ds_step_num s' = S (ds_step_num s)).
Proof.
  intros W (Ho & Hi & [Hr|Hs]).
  2:{ exists s. unfold ds_step. destruct Hs as [Hh Hs]. rewrite Hh.
      split; [reflexivity|]. split; [|split; congruence].
      split; [auto|]. split; [auto|]. right. split; auto. }
  destruct Hr as (Hh & Hhalt & c & Hc & Hst & Hn & Hp & Ht & Hm).
  unfold ds_step. rewrite Hh, (dt_read_at _ Ho), Hst.
  assert (Hx : dt_at (ds_tape s) (dt_position (ds_tape s)) = tp c (hd c)) by (rewrite Ht, Hp; auto).
  rewrite Hx.
  destruct (wf_lookup n m tab (st c) (tp c (hd c)) W Hn (Hm _)) as (row & t & Er & Et & Hok).
  simpl m_trans. unfold simple_trans. unfold ttable, trans_row in *. rewrite Er, Et.
  destruct (dt_write_ok (ds_tape s) (t_sym t) Ho) as (t1 & E1 & Ho1 & Hp1 & Hi1 & _ & _ & Ha1).
  rewrite E1.
  destruct (dt_move_ok t1 (t_dir t) Ho1) as (t2 & E2 & Ho2 & Hp2 & Hi2 & _ & _ & Ha2).
  rewrite E2.
  assert (Hat : forall z, dt_at t2 z = put (tp c) (hd c) (t_sym t) z).
  { intros z. rewrite Ha2, Ha1, Hp. unfold put. now rewrite Ht. }
  destruct Hok as (_ & _ & Hok).
  assert (Hstop : forall b, table_of tab (st c) (tp c (hd c)) = Stop (t_sym t) (t_dir t) b ->
     t_state t = SHalt ->
     exists s', (if sstate_eqb (t_state t) SHalt
        then Some (DSim true (t_state t) t2 (S (ds_step_num s))
                     (Some (dt_count_nonzero t2, SRun (st c), tp c (hd c))))
        else Some (DSim false (t_state t) t2 (S (ds_step_num s)) (ds_halt s))) = Some s' /\
     dsim_ok (table_of tab) n m s' /\ (false = true -> s' = s) /\
     (false = false -> ds_step_num s' = S (ds_step_num s))).
  { intros b Hb Es. rewrite Es. simpl. eexists. split; [reflexivity|].
    split; [|split; [discriminate|reflexivity]].
    split; [exact Ho2|]. split; [simpl; congruence|]. right. split; [reflexivity|].
    exists (st c), (tp c (hd c)), b, (put (tp c) (hd c) (t_sym t)), (dt_count_nonzero t2), c.
    split; [reflexivity|]. split.
    { exists (ds_step_num s), c, (t_sym t), (t_dir t). repeat split; auto. }
    split.
    { destruct (dt_at_nonzero_list t2) as (l & Hl1 & Hl2 & Hl3).
      exists l. split; [exact Hl1|]. split; [|exact Hl3].
      intros z. rewrite Hl2, <- Hat, Hi2, Hi1, Hi. reflexivity. }
    split; [reflexivity|]. split; [exact Hat|]. split; [exact Hc|].
    exists (t_sym t), (t_dir t). split; [exact Hb|]. simpl. lia. }
  destruct (t_cond t) eqn:Ec; try contradiction.
  - destruct Hok as (_ & Hsym & q & Eq & Hq). rewrite Eq. simpl.
    eexists. split; [reflexivity|]. split; [|split; [discriminate|reflexivity]].
    split; [exact Ho2|]. split; [simpl; congruence|]. left.
    split; [reflexivity|]. split; [exact Hhalt|].
    exists (Cfg q (hd c + dz (t_dir t)) (put (tp c) (hd c) (t_sym t))).
    split.
    { cbn [ds_step_num]. rewrite steps_S, Hc. unfold step, table_of.
      unfold ttable, trans_row in *. rewrite Er, Et, Ec, Eq. reflexivity. }
    split; [reflexivity|]. split; [exact Hq|]. split; [simpl; lia|].
    split; [exact Hat|]. simpl. intros z. unfold put. destruct (z =? hd c); auto.
  - destruct Hok as (_ & Es). apply (Hstop true); auto. unfold table_of.
    unfold ttable, trans_row in *. rewrite Er, Et, Ec. reflexivity.
  - destruct Hok as (_ & Es). apply (Hstop false); auto. unfold table_of.
    unfold ttable, trans_row in *. rewrite Er, Et, Ec. reflexivity.
Qed.

Lemma ds_seek_loop_ok n m tab target (W : wf_ttable n m tab) : forall fuel s,
  dsim_ok (table_of tab) n m s -> (target - ds_step_num s <= fuel)%nat ->
  exists s', ds_seek_loop (simple_machine tab) target fuel s = Some s' /\
    dsim_ok (table_of tab) n m s' /\
    ((ds_halted s = true \/ (target <= ds_step_num s)%nat) /\ s' = s \/
     (ds_halted s = false /\ (ds_step_num s < ds_step_num s' <= target)%nat /\
      (ds_halted s' = false -> ds_step_num s' = target))).
Proof.
  induction fuel as [|fuel IH]; intros s Hs Hf; simpl.
  - rewrite (proj2 (Nat.ltb_ge _ _)) by lia. rewrite andb_false_r.
    exists s. split; [auto|]. split; [auto|]. left. split; [right; lia|auto].
  - destruct (ds_halted s) eqn:Eh; simpl.
    { exists s. split; [auto|]. split; [auto|]. left. auto. }
    destruct (Nat.ltb (ds_step_num s) target) eqn:El.
    2:{ apply Nat.ltb_ge in El. exists s. split; [auto|]. split; [auto|]. left. auto. }
    apply Nat.ltb_lt in El.
    destruct (ds_step_ok n m tab s W Hs) as (s1 & E1 & Hs1 & _ & Hn1).
    rewrite E1. specialize (Hn1 Eh).
    destruct (IH s1 Hs1 ltac:(lia)) as (s' & E' & Hs' & Hc).
    exists s'. split; [exact E'|]. split; [exact Hs'|]. right. split; [auto|].
    destruct Hc as [[Hh ->] | (Hh & Hlt & Ht)].
    + split; [lia|]. intros Hf'. destruct Hh; [congruence|]. lia.
    + split; [lia|]. exact Ht.
Qed.
