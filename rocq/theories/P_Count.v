(** * The counts of a table's children add up to its own *)
Require Import ZArith List Lia Bool Arith Permutation.
From Verif Require Import Spec_TM Spec_Rename M_Turing_Machine M_IO M_Enum M_Count P_Macro P_Quint P_IO P_Tree P_Complete P_Unique P_Queue
  P_EnumTree.
Import ListNotations.
Open Scope Z_scope.

(** ** the number of ways to name the unused *)

Lemma prod_down_S k m : prod_down (S k) (m - 1) = m * prod_down k m.
Proof.
  revert m. induction k as [|k IH]; intros m; [simpl; lia|].
  cbn [prod_down] in IH |- *. rewrite IH. replace (m - 1 + Z.of_nat (S (S k))) with (m + Z.of_nat (S k)) by lia. ring.
Qed.

(** [a] of [n] names in use, the first two fixed *)
Definition ways (n a : nat) : Z := prod_down (a - 2) (Z.of_nat n - Z.of_nat a).
Lemma fact2_ways n a : (2 <= a <= n)%nat -> fact2 (Z.of_nat n - 2) (Z.of_nat n - Z.of_nat a) = Some (ways n a).
Proof.
  intros H. unfold fact2, ways. rewrite (proj2 (Z.leb_le _ _)), (proj2 (Z.leb_le _ _)) by lia. simpl. do 2 f_equal. lia.
Qed.
Lemma ways_next n a : (2 <= a < n)%nat -> ways n (S a) = (Z.of_nat n - Z.of_nat a) * ways n a.
Proof.
  intros H. unfold ways. replace (S a - 2)%nat with (S (a - 2)) by lia.
  replace (Z.of_nat n - Z.of_nat (S a)) with (Z.of_nat n - Z.of_nat a - 1) by lia. apply prod_down_S.
Qed.

Definition zsum (l : list Z) : Z := fold_right Z.add 0 l.
Lemma zsum_app x y : zsum (x ++ y) = zsum x + zsum y.
Proof. induction x as [|a x IH]; simpl; [reflexivity|]. rewrite IH. ring. Qed.
Lemma zsum_flat_map {A} (f : A -> list Z) l : zsum (flat_map f l) = zsum (map (fun a => zsum (f a)) l).
Proof. induction l as [|a l IH]; simpl; [reflexivity|]. rewrite zsum_app, IH. reflexivity. Qed.
Lemma zsum_scale {A} (f : A -> Z) c l : zsum (map (fun a => f a * c) l) = zsum (map f l) * c.
Proof. induction l as [|a l IH]; simpl; [reflexivity|]. rewrite IH. ring. Qed.
Lemma zsum_const {A} (f : A -> Z) c l : (forall a, In a l -> f a = c) -> zsum (map f l) = Z.of_nat (length l) * c.
Proof.
  induction l as [|a l IH]; intros H; cbn [map zsum fold_right length]; [ring|]. fold (zsum (map f l)).
  rewrite IH by (intros; apply H; simpl; auto). rewrite (H a) by (simpl; auto). rewrite Nat2Z.inj_succ. ring.
Qed.
Lemma zsum_Permutation x y : Permutation x y -> zsum x = zsum y.
Proof. induction 1; simpl in *; lia. Qed.

Lemma ways_sum n a : (2 <= a <= n)%nat ->
  zsum (map (fun q => ways n (Nat.max a (S q))) (seq 0 (Nat.min n (a + 1)))) = Z.of_nat n * ways n a.
Proof.
  intros H. destruct (Nat.eq_dec a n) as [->|Hne].
  - rewrite (zsum_const _ (ways n n)); [rewrite seq_length; f_equal; lia|].
    intros q Hq. apply in_seq in Hq. f_equal. lia.
  - replace (Nat.min n (a + 1)) with (a + 1)%nat by lia. rewrite seq_app, map_app, zsum_app.
    rewrite (zsum_const _ (ways n a)). 2:{ intros q Hq. apply in_seq in Hq. f_equal. lia. }
    cbn [seq map zsum fold_right]. replace (Nat.max a (S (0 + a))) with (S a) by lia. rewrite ways_next by lia.
    rewrite seq_length. ring.
Qed.

(** ** a table with one cell replaced *)

Lemma otraverse_app {A} (x y : list (option A)) :
  otraverse (x ++ y) = match otraverse x, otraverse y with Some a, Some b => Some (a ++ b) | _, _ => None end.
Proof.
  induction x as [|[a|] x IH]; simpl; [destruct (otraverse y); reflexivity| |reflexivity].
  rewrite IH. destruct (otraverse x), (otraverse y); reflexivity.
Qed.

Lemma all_trans_set n m tab i j ts : rect n m tab -> (i < n)%nat -> (j < m)%nat -> all_trans tab n m = Some ts ->
  exists ts1 t ts2, ts = ts1 ++ t :: ts2 /\ cell tab i j = Some t /\
    forall v, all_trans (set_cell tab i j v) n m = Some (ts1 ++ v :: ts2).
Proof.
  intros Hr Hi Hj E. assert (Hin : In (i, j) (grid n m)) by now apply In_grid2.
  apply in_split in Hin. destruct Hin as (g1 & g2 & Eg). pose proof (NoDup_grid n m) as Nd. unfold all_trans in *. rewrite Eg in *.
  rewrite map_app, otraverse_app in E. cbn [map otraverse] in E.
  destruct (otraverse (map _ g1)) as [ts1|] eqn:E1 in E; [|discriminate].
  destruct (simple_trans tab (snd (i, j)) (SRun (fst (i, j)))) as [t|] eqn:E0; [|discriminate].
  destruct (otraverse (map _ g2)) as [ts2|] eqn:E2 in E; [|discriminate].
  injection E as <-. exists ts1, t, ts2. cbn [fst snd] in E0. rewrite simple_trans_at in E0.
  split; [reflexivity|]. split; [exact E0|]. intros v'. rewrite map_app, otraverse_app. cbn [map otraverse fst snd].
  apply NoDup_remove_2 in Nd.
  assert (X : forall g, (forall a, In a g -> a <> (i, j)) ->
     map (fun a => simple_trans (set_cell tab i j v') (snd a) (SRun (fst a))) g = map (fun a => simple_trans tab (snd a) (SRun (fst a))) g).
  { intros g Hg. apply map_ext_in. intros (i', j') Ha. cbn [fst snd]. rewrite !simple_trans_at. unfold ttable, trans_row in *. rewrite cell_set.
    destruct (Nat.eqb_spec i i'), (Nat.eqb_spec j j'); simpl; auto. subst. now elim (Hg _ Ha). }
  rewrite !X.
  2:{ intros a Ha ->. apply Nd, in_app_iff. auto. }
  2:{ intros a Ha ->. apply Nd, in_app_iff. auto. }
  rewrite E1, E2, simple_trans_at. unfold ttable, trans_row in *. rewrite cell_set, !Nat.eqb_refl. simpl. now rewrite E0.
Qed.

(** ** the statistics of a changed table *)

Lemma run_max_app f x y : run_max f (x ++ y) = Nat.max (run_max f x) (run_max f y).
Proof.
  unfold run_max. rewrite fold_left_app. generalize (fold_left (fun k t => if is_running t then Nat.max k (f t) else k) x 0%nat). intros k.
  assert (G : forall l k, fold_left (fun k t => if is_running t then Nat.max k (f t) else k) l k =
    Nat.max k (fold_left (fun k t => if is_running t then Nat.max k (f t) else k) l 0%nat)).
  { induction l as [|t l IH]; intros k0; simpl; [lia|]. destruct (is_running t); [|apply IH].
    rewrite (IH (Nat.max k0 (f t))), (IH (f t)). lia. }
  apply G.
Qed.
Lemma run_max_cons f t l : run_max f (t :: l) = if is_running t then Nat.max (f t) (run_max f l) else run_max f l.
Proof. change (t :: l) with ([t] ++ l). rewrite run_max_app. unfold run_max at 1. simpl. now destruct (is_running t). Qed.
Lemma num_undefined_app x y : num_undefined (x ++ y) = (num_undefined x + num_undefined y)%nat.
Proof. unfold num_undefined. now rewrite filter_app, app_length. Qed.

(** a table without halting cells *)
Definition open_ts (ts : list (transition nat sstate)) : Prop := forall t, In t ts -> is_undefined t = true \/ is_running t = true.

Definition mult (base : Z) (allow : bool) (u : nat) : Z :=
  (if Nat.leb 1 u then Z.of_nat u * base ^ (Z.of_nat u - 1) else 0) + (if allow then base ^ Z.of_nat u else 0).

Lemma open_countable ts : open_ts ts -> forallb countable ts = true /\ existsb is_halt ts = false.
Proof.
  intros H. split.
  - apply forallb_forall. intros t Ht. unfold countable. destruct (H t Ht) as [-> | ->]; [reflexivity|now rewrite orb_true_r].
  - destruct (existsb is_halt ts) eqn:E; auto. apply existsb_exists in E. destruct E as (t & Ht & Hh).
    destruct (H t Ht) as [X|X]; unfold is_undefined, is_running, is_halt in *; destruct (t_cond t); discriminate.
Qed.

Lemma count_open n m allow ts a c : open_ts ts -> (run_max out_state ts + 1 = a)%nat -> (run_max (@t_sym nat sstate) ts + 1 = c)%nat ->
  (2 <= a <= n)%nat -> (2 <= c <= m)%nat ->
  count_of n m allow ts = Some (ways m c * ways n a * mult (2 * Z.of_nat n * Z.of_nat m) allow (num_undefined ts)).
Proof.
  intros Ho Ea Ec Ha Hc. destruct (open_countable ts Ho) as (E1 & E2). unfold count_of. rewrite E1, E2.
  rewrite <- (Nat2Z.inj_add _ 1), Ec, <- (Nat2Z.inj_add _ 1), Ea, !fact2_ways by assumption. reflexivity.
Qed.

Lemma mult_step base allow u : (1 <= u)%nat ->
  mult base allow u = base ^ (Z.of_nat u - 1) + (if (allow || Nat.ltb 1 u)%bool then base * mult base allow (u - 1) else 0).
Proof.
  intros H. unfold mult. rewrite (proj2 (Nat.leb_le 1 u)) by exact H.
  destruct u as [|u]; [lia|]. replace (S u - 1)%nat with u by lia. replace (Z.of_nat (S u) - 1) with (Z.of_nat u) by lia.
  destruct u as [|u].
  - cbn [Nat.leb Nat.ltb]. change (Z.of_nat 1) with 1. change (Z.of_nat 0) with 0. rewrite Z.pow_0_r, Z.pow_1_r. destruct allow; cbn [orb]; ring.
  - rewrite (proj2 (Nat.leb_le 1 (S u))), (proj2 (Nat.ltb_lt 1 (S (S u)))), orb_true_r by lia.
    replace (Z.of_nat (S u) - 1) with (Z.of_nat u) by lia. rewrite !Nat2Z.inj_succ, !Z.pow_succ_r by lia.
    destruct allow; ring.
Qed.

Lemma max_of_open ts : open_ts ts -> max_state_of ts = run_max out_state ts /\ max_symbol_of ts = run_max (@t_sym nat sstate) ts.
Proof.
  intros H. unfold max_state_of, max_symbol_of, run_max.
  assert (E : forall t, In t ts -> is_running t = negb (is_undefined t)).
  { intros t Ht. destruct (H t Ht) as [X|X]; unfold is_undefined, is_running in *; destruct (t_cond t); simpl in *; congruence. }
  clear H. split.
  - change (fun (k : nat) (t : transition nat sstate) => if is_undefined t then k else Nat.max k match t_state t with SRun q => q | SHalt => 0%nat end)
      with (fun (k : nat) (t : transition nat sstate) => if is_undefined t then k else Nat.max k (out_state t)).
    generalize 0%nat. revert E. induction ts as [|t l IH]; intros E k; cbn [fold_left]; [reflexivity|].
    rewrite (E t) by (simpl; auto). destruct (is_undefined t); cbn [negb]; apply IH; intros; apply E; simpl; auto.
  - generalize 0%nat. revert E. induction ts as [|t l IH]; intros E k; cbn [fold_left]; [reflexivity|].
    rewrite (E t) by (simpl; auto). destruct (is_undefined t); cbn [negb]; apply IH; intros; apply E; simpl; auto.
Qed.

(** ** the children *)

Lemma count_all_sum n m allow tabs l : otraverse (map (fun tab => count tab n m allow) tabs) = Some l -> count_all n m allow tabs = Some (zsum l).
Proof.
  revert l. induction tabs as [|tab tabs IH]; simpl; intros l E; [injection E as <-; reflexivity|].
  destruct (count tab n m allow); [|discriminate]. destruct (otraverse _) as [l'|]; [|discriminate]. injection E as <-.
  now rewrite (IH l').
Qed.
Lemma otraverse_map_some {A B} (f : A -> option B) (g : A -> B) l : (forall a, In a l -> f a = Some (g a)) ->
  otraverse (map f l) = Some (map g l).
Proof.
  induction l as [|a l IH]; intros H; simpl; [reflexivity|]. rewrite (H a), IH by (intros; try apply H; simpl; auto). reflexivity.
Qed.

Lemma seq_min_state n a : (1 <= a)%nat -> Nat.min n (a - 1 + 2) = Nat.min n (a + 1).
Proof. lia. Qed.

Lemma count_children n m allow tab ts i j a c l : rect n m tab -> all_trans tab n m = Some ts -> open_ts ts ->
  cell tab i j = Some (undefined_trans j i) -> (i < n)%nat -> (j < m)%nat ->
  (run_max out_state ts + 1 = a)%nat -> (run_max (@t_sym nat sstate) ts + 1 = c)%nat -> (2 <= a <= n)%nat -> (2 <= c <= m)%nat ->
  enum_children tab n m allow i j = Some l ->
  exists total, count tab n m allow = Some total /\ count_all n m allow (set_halt_trans tab i j :: l) = Some total.
Proof.
  intros Hr Ets Ho Ec Hi Hj Ea Ecc Ha Hc El.
  destruct (all_trans_set n m tab i j ts Hr Hi Hj Ets) as (ts1 & t & ts2 & -> & Et & Hset).
  rewrite Ec in Et. injection Et as <-.
  assert (Eu : num_undefined (ts1 ++ undefined_trans j i :: ts2) = S (num_undefined ts1 + num_undefined ts2)).
  { rewrite num_undefined_app. unfold num_undefined at 2. cbn [filter is_undefined undefined_trans t_cond length]. fold (num_undefined ts2). lia. }
  rewrite run_max_app, run_max_cons in Ea, Ecc. cbn [is_running undefined_trans t_cond] in Ea, Ecc.
  set (base := 2 * Z.of_nat n * Z.of_nat m).
  set (u := S (num_undefined ts1 + num_undefined ts2)) in *.
  exists (ways m c * ways n a * mult base allow u). split.
  { unfold count. rewrite Ets. rewrite (count_open n m allow _ a c); auto; rewrite ?run_max_app, ?run_max_cons; auto. now rewrite Eu. }
  assert (Eh : count (set_halt_trans tab i j) n m allow = Some (ways m c * ways n a * base ^ (Z.of_nat u - 1))).
  { unfold count, set_halt_trans. rewrite Hset. unfold count_of.
    assert (E1 : forallb countable (ts1 ++ halt_trans i j :: ts2) = true).
    { destruct (open_countable _ Ho) as (E & _). rewrite forallb_app in E |- *. exact E. }
    rewrite E1, !run_max_app, !run_max_cons, existsb_app. cbn [is_running is_halt existsb halt_trans t_cond orb].
    rewrite orb_true_r. rewrite <- !(Nat2Z.inj_add _ 1), Ea, Ecc, !fact2_ways by assumption.
    rewrite num_undefined_app. unfold num_undefined at 2. cbn [filter is_undefined halt_trans t_cond length]. fold (num_undefined ts2).
    fold base. do 3 f_equal. unfold u. lia. }
  assert (Echild : forall q w d, (q < n)%nat -> (w < m)%nat ->
    count (set_trans tab i j w d q) n m allow = Some (ways m (Nat.max c (S w)) * ways n (Nat.max a (S q)) * mult base allow (u - 1))).
  { intros q w d Hq Hw. unfold count, set_trans. rewrite Hset.
    rewrite (count_open n m allow _ (Nat.max a (S q)) (Nat.max c (S w))); try lia.
    - do 2 f_equal. rewrite num_undefined_app. unfold num_undefined at 2. cbn [filter is_undefined running_trans t_cond length].
      fold (num_undefined ts2). fold base. f_equal. unfold u. lia.
    - intros t Ht. apply in_app_iff in Ht. cbn [In] in Ht. destruct Ht as [Ht|[<-|Ht]]; [| now right |];
        apply Ho; rewrite in_app_iff; simpl; auto.
    - rewrite run_max_app, run_max_cons. cbn [is_running running_trans t_cond out_state t_state]. lia.
    - rewrite run_max_app, run_max_cons. cbn [is_running running_trans t_cond t_sym]. lia. }
  unfold enum_children in El. rewrite Ets in El. injection El as <-. rewrite Eu.
  destruct (max_of_open _ Ho) as (Em1 & Em2). rewrite run_max_app, run_max_cons in Em1, Em2. cbn [is_running undefined_trans t_cond] in Em1, Em2.
  cbn [count_all]. rewrite Eh. rewrite (mult_step base allow u) by (unfold u; lia).
  destruct (allow || Nat.ltb 1 u)%bool.
  2:{ cbn [count_all]. f_equal. ring. }
  match goal with |- context[child_choices n m ?X] => set (ts := X) in * end.
  assert (Ea_def : a_trans_defined ts = true).
  { unfold a_trans_defined. destruct (existsb (fun t => negb (is_undefined t)) ts) eqn:E; auto. exfalso.
    assert (max_state_of ts = 0%nat); [|lia].
    unfold max_state_of. generalize 0%nat. clear -E. induction ts as [|t l IH]; intros k; simpl in *; auto.
    apply orb_false_iff in E. destruct E as (E1 & E2). destruct (is_undefined t); [auto|discriminate]. }
  set (K := mult base allow (u - 1)) in *.
  rewrite (count_all_sum n m allow _
     (map (fun x => let '(q, w, d) := x in ways m (Nat.max c (S w)) * ways n (Nat.max a (S q)) * K) (child_choices n m ts))).
  2:{ rewrite map_map. apply otraverse_map_some. intros ((q, w), d) Hin. apply In_choices in Hin. apply Echild; tauto. }
  f_equal. unfold child_choices. rewrite Ea_def. rewrite Em1, Em2.
  replace (Nat.min n (Nat.max (run_max out_state ts1) (run_max out_state ts2) + 2)) with (Nat.min n (a + 1)) by lia.
  replace (Nat.min m (Nat.max (run_max (@t_sym nat sstate) ts1) (run_max (@t_sym nat sstate) ts2) + 2)) with (Nat.min m (c + 1)) by lia.
  rewrite flat_map_concat_map, concat_map, map_map, <- flat_map_concat_map, zsum_flat_map.
  rewrite (map_ext_in _ (fun q => ways n (Nat.max a (S q)) * (2 * Z.of_nat m * ways m c * K))).
  2:{ intros q Hq. rewrite flat_map_concat_map, concat_map, map_map, <- flat_map_concat_map, zsum_flat_map.
      rewrite (map_ext _ (fun w => ways m (Nat.max c (S w)) * (2 * ways n (Nat.max a (S q)) * K))).
      2:{ intros w. cbn [map zsum fold_right]. ring. }
      rewrite zsum_scale, ways_sum by exact Hc. ring. }
  rewrite zsum_scale, ways_sum by exact Ha. unfold base. ring.
Qed.
