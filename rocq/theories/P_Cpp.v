(** * The C++ simulator and the C++ enumeration agree with the reference semantics and with the Python enumeration *)
Require Import ZArith List Lia Bool Arith Permutation.
From Verif Require Import Spec_TM Spec_Rename M_Turing_Machine M_IO M_Enum P_Macro P_Quint P_IO P_Tree P_Complete P_Unique P_Queue
  P_EnumTree P_Count P_Enumerate Prop_Count M_Cpp.
Import ListNotations.
Open Scope nat_scope.

(** ** the tape *)

Definition vrel (t : vtape) (c : config) : Prop :=
  (0 <= v_index t < Z.of_nat (length (v_cells t)))%Z /\ vt_position t = hd c /\ forall z, vt_read_at t z = tp c z.

Lemma read_in t z : (0 <= z + v_start t < Z.of_nat (length (v_cells t)))%Z ->
  vt_read_at t z = nth (Z.to_nat (z + v_start t)) (v_cells t) 0.
Proof.
  intros H. unfold vt_read_at, vt_in_range. destruct (Z.leb_spec 0 (z + v_start t)); [|lia].
  destruct (Z.ltb_spec (z + v_start t) (Z.of_nat (length (v_cells t)))); [reflexivity|lia].
Qed.
Lemma read_out t z : ~ (0 <= z + v_start t < Z.of_nat (length (v_cells t)))%Z -> vt_read_at t z = 0.
Proof.
  intros H. unfold vt_read_at, vt_in_range. destruct (Z.leb_spec 0 (z + v_start t)); [|reflexivity].
  destruct (Z.ltb_spec (z + v_start t) (Z.of_nat (length (v_cells t)))); [lia|reflexivity].
Qed.

Lemma vrel_init : vrel vt_init initial.
Proof.
  split; [|split; [reflexivity|]].
  - unfold vt_init. cbn [v_index v_cells]. rewrite repeat_length. unfold unit_size. cbn. lia.
  - intros z. cbn [initial tp]. destruct (Z_le_dec 0 (z + v_start vt_init)), (Z_lt_dec (z + v_start vt_init) (Z.of_nat (length (v_cells vt_init))));
      try (apply read_out; lia). rewrite read_in by lia. unfold vt_init. cbn [v_cells]. apply nth_repeat.
Qed.

Lemma vrel_read t c : vrel t c -> vt_read t = Some (tp c (hd c)).
Proof.
  intros (Hi & Hp & Ht). unfold vt_read, vt_get. destruct (Z.ltb_spec (v_index t) 0); [lia|].
  rewrite <- Ht, <- Hp. unfold vt_position. rewrite read_in by lia. rewrite Z.sub_add.
  apply nth_error_nth'. lia.
Qed.

Lemma list_set_length l : forall i v, length (list_set l i v) = length l.
Proof. induction l as [|x l IH]; intros [|i] v; simpl; auto. Qed.
Lemma nth_list_set l : forall i v j, i < length l -> nth j (list_set l i v) 0 = if Nat.eqb j i then v else nth j l 0.
Proof.
  induction l as [|x l IH]; intros i v j H; [simpl in H; lia|]. destruct i as [|i], j as [|j]; simpl; auto.
  apply IH. simpl in H. lia.
Qed.

Lemma vrel_write t c w : vrel t c -> vrel (vt_write t w) (Cfg (st c) (hd c) (put (tp c) (hd c) w)).
Proof.
  intros (Hi & Hp & Ht). unfold vt_write. split; [|split]; cbn [v_cells v_index v_start hd tp].
  - rewrite list_set_length. exact Hi.
  - exact Hp.
  - intros z. destruct (Z_le_dec 0 (z + v_start t)) as [A|A], (Z_lt_dec (z + v_start t) (Z.of_nat (length (v_cells t)))) as [B|B].
    + rewrite read_in by (cbn [v_cells v_start]; rewrite list_set_length; lia). cbn [v_cells v_start].
      rewrite nth_list_set by lia. unfold put. unfold vt_position in Hp.
      destruct (Nat.eqb_spec (Z.to_nat (z + v_start t)) (Z.to_nat (v_index t))), (Z.eqb_spec z (hd c)); try lia; auto.
      rewrite <- Ht. now rewrite read_in by lia.
    + rewrite read_out by (cbn [v_cells v_start]; rewrite list_set_length; lia). unfold vt_position in Hp. rewrite put_other by lia.
      rewrite <- Ht. now rewrite read_out by lia.
    + rewrite read_out by (cbn [v_cells v_start]; rewrite list_set_length; lia). unfold vt_position in Hp. rewrite put_other by lia.
      rewrite <- Ht. now rewrite read_out by lia.
    + rewrite read_out by (cbn [v_cells v_start]; rewrite list_set_length; lia). unfold vt_position in Hp. rewrite put_other by lia.
      rewrite <- Ht. now rewrite read_out by lia.
Qed.

Lemma read_extend_left cells s i u z : vt_read_at (VTape (repeat 0 u ++ cells) (s + Z.of_nat u) (i + Z.of_nat u)) z = vt_read_at (VTape cells s i) z.
Proof.
  destruct (Z_le_dec 0 (z + s)) as [A|A], (Z_lt_dec (z + s) (Z.of_nat (length cells))) as [B|B].
  - rewrite !read_in by (cbn [v_cells v_start]; rewrite ?app_length, ?repeat_length; lia). cbn [v_cells v_start].
    rewrite app_nth2 by (rewrite repeat_length; lia). rewrite repeat_length. f_equal. lia.
  - rewrite !read_out by (cbn [v_cells v_start]; rewrite ?app_length, ?repeat_length; lia). reflexivity.
  - rewrite (read_out (VTape cells s i)) by (cbn [v_cells v_start]; lia).
    destruct (Z_le_dec 0 (z + (s + Z.of_nat u))).
    + rewrite read_in by (cbn [v_cells v_start]; rewrite ?app_length, ?repeat_length; lia). cbn [v_cells v_start].
      rewrite app_nth1 by (rewrite repeat_length; lia). apply nth_repeat.
    + apply read_out. cbn [v_cells v_start]. lia.
  - exfalso. lia.
Qed.
Lemma read_extend_right cells s i u z : vt_read_at (VTape (cells ++ repeat 0 u) s i) z = vt_read_at (VTape cells s i) z.
Proof.
  destruct (Z_le_dec 0 (z + s)) as [A|A], (Z_lt_dec (z + s) (Z.of_nat (length cells))) as [B|B].
  - rewrite !read_in by (cbn [v_cells v_start]; rewrite ?app_length, ?repeat_length; lia). cbn [v_cells v_start].
    now rewrite app_nth1 by lia.
  - rewrite (read_out (VTape cells s i)) by (cbn [v_cells v_start]; lia).
    destruct (Z_lt_dec (z + s) (Z.of_nat (length (cells ++ repeat 0 u)))).
    + rewrite read_in by (cbn [v_cells v_start]; lia). cbn [v_cells v_start]. rewrite app_nth2 by lia. apply nth_repeat.
    + apply read_out. cbn [v_cells v_start]. lia.
  - rewrite !read_out by (cbn [v_cells v_start]; lia). reflexivity.
  - rewrite !read_out by (cbn [v_cells v_start]; lia). reflexivity.
Qed.

Lemma vrel_move t c d : vrel t c -> vrel (vt_move t d) (Cfg (st c) (hd c + dz d) (tp c)).
Proof.
  intros (Hi & Hp & Ht). unfold vt_position in Hp. unfold vt_move. assert (D : dz d = 1%Z \/ dz d = (-1)%Z) by (destruct d; auto).
  destruct t as [cells s i]. cbn [v_cells v_start v_index] in *.
  destruct (Z.ltb_spec (i + dz d) 0); [|destruct (Z.leb_spec (Z.of_nat (length cells)) (i + dz d))].
  - split; [|split]; cbn [v_cells v_index v_start hd tp].
    + rewrite app_length, repeat_length. unfold unit_size in *. lia.
    + unfold vt_position. cbn [v_index v_start]. lia.
    + intros z. rewrite <- Ht, read_extend_left. reflexivity.
  - split; [|split]; cbn [v_cells v_index v_start hd tp].
    + rewrite app_length, repeat_length. unfold unit_size in *. lia.
    + unfold vt_position. cbn [v_index v_start]. lia.
    + intros z. rewrite <- Ht, read_extend_right. reflexivity.
  - split; [|split]; cbn [v_cells v_index v_start hd tp]; [lia| |exact Ht].
    unfold vt_position. cbn [v_index v_start]. lia.
Qed.

(** ** the machine of a C++ table, as a Python table *)

Definition py_cell (i j : nat) (x : lookup) : transition nat sstate :=
  if lk_undecided x then undefined_trans j i else
  match lk_state x with
  | SRun q => running_trans i (lk_symbol x) (lk_move x) q
  | SHalt => Trans HALT [DCell j i] (lk_symbol x) SHalt (lk_move x) 1 [(i, 0)]
  end.
Definition to_tab (t : list (list lookup)) : ttable := mapi (fun i row => mapi (fun j x => py_cell i j x) row) t.
Lemma cell_to_tab t i j : cell (to_tab t) i j = option_map (py_cell i j) (cell t i j).
Proof.
  unfold cell, to_tab, mapi. rewrite nth_error_mapi_from. destruct (nth_error t i) as [row|]; simpl; auto. now rewrite nth_error_mapi_from.
Qed.
Lemma rect_to_tab n m t : rect n m t -> rect n m (to_tab t).
Proof.
  intros (Hl & Hr). unfold to_tab, mapi. split; [now rewrite mapi_from_length|].
  intros row H. apply In_nth_error in H. destruct H as (i & H). rewrite nth_error_mapi_from in H.
  destruct (nth_error t i) as [r|] eqn:E; [|discriminate]. simpl in H. injection H as <-.
  rewrite mapi_from_length. apply Hr. eapply nth_error_In; eauto.
Qed.
Lemma to_tab_set n m t i j x : rect n m t -> to_tab (set_cell t i j x) = set_cell (to_tab t) i j (py_cell i j x).
Proof.
  intros Hr. apply (rect_ext n m); [apply rect_to_tab, rect_set, Hr|apply rect_set, rect_to_tab, Hr|]. intros a b Ha Hb.
  rewrite cell_to_tab, !cell_set, cell_to_tab. destruct (Nat.eqb_spec i a), (Nat.eqb_spec j b); simpl; auto. subst.
  now destruct (cell t a b).
Qed.

Definition wf_lookup (n m : nat) (x : lookup) : Prop :=
  x = empty_trans \/ lk_undecided x = false /\ lk_symbol x < m /\ match lk_state x with SRun q => q < n | SHalt => True end.
Definition wf_trans (n m : nat) (t : list (list lookup)) : Prop := rect n m t /\ forall i j x, cell t i j = Some x -> wf_lookup n m x.

Lemma wf_set n m t i j x : wf_trans n m t -> wf_lookup n m x -> wf_trans n m (set_cell t i j x).
Proof.
  intros (Hr & H) Hx. split; [now apply rect_set|]. intros a b y. rewrite cell_set.
  destruct (Nat.eqb i a && Nat.eqb j b)%bool; [|apply H]. destruct (cell t a b); [|discriminate]. now intros [= <-].
Qed.

Lemma table_to_tab n m t i j x : wf_trans n m t -> cell t i j = Some x ->
  table_of (to_tab t) i j = match lk_state x with SRun q => Go (lk_symbol x) (lk_move x) q
                                                 | SHalt => Stop (lk_symbol x) (lk_move x) (negb (lk_undecided x)) end.
Proof.
  intros (_ & H) E. rewrite table_of_cell, cell_to_tab, E. simpl. destruct (H _ _ _ E) as [-> |(U & _)]; [reflexivity|].
  unfold py_cell. rewrite U. destruct (lk_state x); reflexivity.
Qed.

Lemma wf_in_range n m t : wf_trans n m t -> in_range n m (table_of (to_tab t)).
Proof.
  intros H i j w d q Hi Hj E. destruct (rect_cell n m t i j (proj1 H) Hi Hj) as (x & Ex). rewrite (table_to_tab _ _ _ _ _ _ H Ex) in E.
  destruct (proj2 H _ _ _ Ex) as [-> |(_ & Hw & Hq)]; [discriminate|]. destruct (lk_state x); [|discriminate]. injection E as <- <- <-. auto.
Qed.

(** ** the simulator *)

(** where a run stops within [k] transitions: the number of running transitions before, the state and the symbol *)
Fixpoint stop_at (T : table) (k : nat) (c : config) : option (nat * nat * nat) :=
  match k with
  | O => None
  | S k => match step T c with
           | Some c' => option_map (fun r => (S (fst (fst r)), snd (fst r), snd r)) (stop_at T k c')
           | None => Some (0, st c, tp c (hd c))
           end
  end.
Lemma stop_at_some T k : forall c i q a, stop_at T k c = Some (i, q, a) ->
  i < k /\ exists c' w d e, steps T i c = Some c' /\ st c' = q /\ tp c' (hd c') = a /\ T q a = Stop w d e.
Proof.
  induction k as [|k IH]; simpl; intros c i q a E; [discriminate|]. destruct (step T c) as [c'|] eqn:Es.
  - destruct (stop_at T k c') as [((i', q'), a')|] eqn:E'; [|discriminate]. simpl in E. injection E as <- <- <-.
    destruct (IH _ _ _ _ E') as (Hi & H). split; [lia|]. cbn [steps]. now rewrite Es.
  - injection E as <- <- <-. split; [lia|]. unfold step in Es. destruct (T (st c) (tp c (hd c))) as [|w d e] eqn:ET; [discriminate|].
    exists c, w, d, e. simpl. auto.
Qed.
Lemma stop_at_none T k : forall c, stop_at T k c = None <-> exists c', steps T k c = Some c'.
Proof.
  induction k as [|k IH]; simpl; intros c; [split; eauto|]. destruct (step T c) as [c'|].
  - rewrite <- IH. destruct (stop_at T k c') as [((i', q'), a')|]; simpl; split; auto; discriminate.
  - split; [discriminate|]. intros (? & ?). discriminate.
Qed.
Lemma stop_at_halts T k i q a : stop_at T k initial = Some (i, q, a) -> exists e t, halts_at T initial (S i) q a e t.
Proof.
  intros E. destruct (stop_at_some _ _ _ _ _ _ E) as (_ & c' & w & d & e & Es & Eq & Ea & ET).
  exists e, (put (tp c') (hd c') w), i, c', w, d. repeat split; auto.
Qed.
Lemma halts_stop_at T k q a e t h : halts_at T initial h q a e t -> h <= k -> stop_at T k initial = Some (pred h, q, a).
Proof.
  intros (i & c' & w & d & -> & Es & -> & -> & ET & _) H. simpl. revert c' k Es ET H. generalize initial as c.
  induction i as [|i IH]; intros c c' k Es ET H; (destruct k as [|k]; [lia|]); cbn [stop_at].
  - cbn [steps] in Es. injection Es as ->. unfold step. now rewrite ET.
  - cbn [steps] in Es. destruct (step T c) as [c1|]; [|discriminate]. rewrite (IH c1 c' k Es ET ltac:(lia)). reflexivity.
Qed.

Definition srel (s : csim) (c : config) : Prop := cs_state s = SRun (st c) /\ vrel (cs_tape s) c.

Lemma step_safe_spec n m tm s c : wf_trans n m (c_trans tm) -> srel s c -> st c < n -> (forall z, tp c z < m) ->
  let T := table_of (to_tab (c_trans tm)) in
  exists s', cs_step_safe tm s = Some s' /\ cs_steps s' = S (cs_steps s) /\ cs_last s' = Some (st c, tp c (hd c)) /\
    match T (st c) (tp c (hd c)) with
    | Go w d q => srel s' (Cfg q (hd c + dz d) (put (tp c) (hd c) w)) /\ q < n /\ w < m
    | Stop w d _ => cs_state s' = SHalt /\ vrel (cs_tape s') (Cfg 0 (hd c + dz d) (put (tp c) (hd c) w))
    end.
Proof.
  intros W (Hs & Hv) Hn Hm T. unfold cs_step_safe. rewrite Hs, (vrel_read _ _ Hv).
  destruct (rect_cell n m (c_trans tm) (st c) (tp c (hd c)) (proj1 W) Hn (Hm _)) as (x & Ex).
  change (c_lookup tm (st c) (tp c (hd c))) with (cell (c_trans tm) (st c) (tp c (hd c))). rewrite Ex.
  eexists. split; [reflexivity|]. split; [reflexivity|]. split; [reflexivity|]. unfold T. rewrite (table_to_tab _ _ _ _ _ _ W Ex).
  pose proof (vrel_move _ _ (lk_move x) (vrel_write _ _ (lk_symbol x) Hv)) as V. cbn [st hd tp] in V.
  destruct (lk_state x) as [q|] eqn:Eq; cbn [cs_state cs_tape].
  - split; [split; [reflexivity|]|].
    + destruct V as (V1 & V2 & V3). split; [exact V1|]. split; [exact V2|exact V3].
    + destruct (proj2 W _ _ _ Ex) as [-> |(_ & Hw & Hq)]; [discriminate Eq|]. rewrite Eq in Hq. auto.
  - split; [reflexivity|]. destruct V as (V1 & V2 & V3). split; [exact V1|]. split; [exact V2|exact V3].
Qed.

Lemma turns_spec n m tm : wf_trans n m (c_trans tm) -> forall k s c, srel s c -> st c < n -> (forall z, tp c z < m) ->
  let T := table_of (to_tab (c_trans tm)) in
  exists s', cs_turns tm k s = Some s' /\
    match stop_at T k c with
    | Some (i, q, a) => cs_state s' = SHalt /\ cs_steps s' = cs_steps s + S i /\ cs_last s' = Some (q, a)
    | None => exists c', steps T k c = Some c' /\ srel s' c' /\ cs_steps s' = cs_steps s + k
    end.
Proof.
  intros W. induction k as [|k IH]; intros s c Hs Hn Hm T.
  - exists s. split; [reflexivity|]. exists c. simpl. repeat split; auto; apply Hs.
  - cbn [cs_turns stop_at steps]. unfold cs_halted. rewrite (proj1 Hs).
    destruct (step_safe_spec n m tm s c W Hs Hn Hm) as (s1 & -> & E1 & E2 & E3). fold T in E3. unfold step.
    destruct (T (st c) (tp c (hd c))) as [w d q|w d e].
    + destruct E3 as (R1 & Hq & Hw). destruct (IH s1 _ R1) as (s' & E & H); [exact Hq| |].
      { intros z. cbn [tp]. unfold put. destruct (z =? hd c)%Z; auto. }
      exists s'. split; [exact E|]. fold T in H.
      destruct (stop_at T k (Cfg q (hd c + dz d) (put (tp c) (hd c) w))) as [((i, q'), a')|]; simpl.
      * destruct H as (H1 & H2 & H3). repeat split; auto. lia.
      * destruct H as (c' & H1 & H2 & H3). exists c'. repeat split; auto; try apply H2. lia.
    + destruct E3 as (Eh & _). exists s1. split; [destruct k; cbn [cs_turns]; unfold cs_halted; rewrite ?Eh; reflexivity|].
      repeat split; auto. lia.
Qed.

Lemma srel_init : srel cs_init initial.
Proof. split; [reflexivity|apply vrel_init]. Qed.

(** ** the children *)

Record like (n m : nat) (tm : cpp_tm) : Prop := {
  lk_states : c_states tm = n;
  lk_symbols : c_symbols tm = m;
  lk_wf : wf_trans n m (c_trans tm);
  lk_run : forall i j x, cell (c_trans tm) i j = Some x -> x = empty_trans \/ exists q, lk_state x = SRun q;
  lk_stats : exists ts, all_trans (to_tab (c_trans tm)) n m = Some ts /\
    c_max_state tm = Nat.max 1 (Nat.min (n - 1) (max_state_of ts + 1)) /\
    c_max_symbol tm = Nat.max 1 (Nat.min (m - 1) (max_symbol_of ts + 1)) /\
    c_left_ok tm = a_trans_defined ts /\ c_halts tm = Z.of_nat (num_undefined ts) }.

Lemma fold_max_app (f : transition nat sstate -> nat) (x y : list (transition nat sstate)) :
  let g := fun k t => if is_undefined t then k else Nat.max k (f t) in
  fold_left g (x ++ y) 0 = Nat.max (fold_left g x 0) (fold_left g y 0).
Proof.
  intros g. rewrite fold_left_app. generalize (fold_left g x 0).
  assert (G : forall l k, fold_left g l k = Nat.max k (fold_left g l 0)).
  { induction l as [|t l IH]; intros k; simpl; [lia|]. rewrite (IH (g k t)), (IH (g 0 t)). unfold g. destruct (is_undefined t); lia. }
  intros k. apply G.
Qed.
Lemma max_state_app x y : max_state_of (x ++ y) = Nat.max (max_state_of x) (max_state_of y).
Proof. apply fold_max_app. Qed.
Lemma max_symbol_app x y : max_symbol_of (x ++ y) = Nat.max (max_symbol_of x) (max_symbol_of y).
Proof. apply fold_max_app. Qed.
Lemma max_state_cons t y : max_state_of (t :: y) = Nat.max (max_state_of [t]) (max_state_of y).
Proof. apply (max_state_app [t]). Qed.
Lemma max_symbol_cons t y : max_symbol_of (t :: y) = Nat.max (max_symbol_of [t]) (max_symbol_of y).
Proof. apply (max_symbol_app [t]). Qed.

Lemma num_undefined_cons t y : num_undefined (t :: y) = num_undefined [t] + num_undefined y.
Proof. apply (num_undefined_app [t] y). Qed.
Lemma stats_empty i j : max_state_of [py_cell i j empty_trans] = 0 /\ max_symbol_of [py_cell i j empty_trans] = 0 /\
  num_undefined [py_cell i j empty_trans] = 1.
Proof. repeat split. Qed.
Lemma stats_run i w d q : max_state_of [running_trans i w d q] = q /\ max_symbol_of [running_trans i w d q] = w /\
  num_undefined [running_trans i w d q] = 0.
Proof. repeat split. Qed.

Lemma like_child n m tm i j w d q : like n m tm -> cell (c_trans tm) i j = Some empty_trans -> q < n -> w < m ->
  like n m (child_tm tm i j (Lookup w d (SRun q) false)) /\
  to_tab (c_trans (child_tm tm i j (Lookup w d (SRun q) false))) = set_trans (to_tab (c_trans tm)) i j w d q.
Proof.
  intros [Hn Hm W Hrun (ts & Ets & E1 & E2 & E3 & E4)] Ec Hq Hw.
  assert (Et : to_tab (c_trans (child_tm tm i j (Lookup w d (SRun q) false))) = set_trans (to_tab (c_trans tm)) i j w d q)
    by (cbn [child_tm c_trans]; rewrite (to_tab_set n m _ _ _ _ (proj1 W)); reflexivity).
  split; [|exact Et]. constructor; auto.
  - cbn [child_tm c_trans]. apply wf_set; auto. right. auto.
  - intros a b y. cbn [child_tm c_trans]. rewrite cell_set. destruct (Nat.eqb i a && Nat.eqb j b)%bool; [|apply Hrun].
    destruct (cell (c_trans tm) a b); [|discriminate]. intros [= <-]. right. exists q. reflexivity.
  - destruct (cell_bounds _ _ _ _ _ _ (proj1 W) Ec) as (Hi & Hj).
    destruct (all_trans_set n m _ i j ts (rect_to_tab _ _ _ (proj1 W)) Hi Hj Ets) as (ts1 & t & ts2 & -> & Et' & Hset).
    rewrite cell_to_tab, Ec in Et'. injection Et' as <-. exists (ts1 ++ running_trans i w d q :: ts2). split; [rewrite Et; apply Hset|].
    cbn [child_tm c_max_state c_max_symbol c_left_ok c_halts lk_state lk_symbol]. rewrite E1, E2, E4, Hn, Hm.
    rewrite !max_state_app, !max_symbol_app, !(max_state_cons _ ts2), !(max_symbol_cons _ ts2).
    destruct (stats_empty i j) as (-> & -> & X1). destruct (stats_run i w d q) as (-> & -> & X2).
    clear -X1 X2 Hq Hw. generalize (max_state_of ts1) (max_state_of ts2) (max_symbol_of ts1) (max_symbol_of ts2). intros a b a' b'.
    split; [lia|]. split; [lia|]. split.
    + unfold a_trans_defined. rewrite existsb_app. cbn [existsb running_trans is_undefined t_cond negb orb]. now rewrite orb_true_r.
    + rewrite !num_undefined_app, !(num_undefined_cons _ ts2), X1, X2. lia.
Qed.

Lemma like_empty n m : 2 <= n -> 2 <= m -> like n m (empty_tm n m) /\ blank_tm_enum n m false = Some (to_tab (c_trans (empty_tm n m))).
Proof.
  intros Hn Hm. assert (W : wf_trans n m (repeat (repeat empty_trans m) n)).
  { split; [apply rect_blank|]. intros i j x E. destruct (cell_bounds _ _ _ _ _ _ (rect_blank n m empty_trans) E) as (Hi & Hj).
    rewrite cell_blank in E by auto. injection E as <-. now left. }
  assert (C : forall i j, i < n -> j < m -> cell (to_tab (repeat (repeat empty_trans m) n)) i j = Some (undefined_trans j i)).
  { intros i j Hi Hj. rewrite cell_to_tab, cell_blank by auto. reflexivity. }
  split.
  - constructor; auto.
    { intros i j x E. destruct (cell_bounds _ _ _ _ _ _ (proj1 W) E) as (Hi & Hj). cbn [empty_tm c_trans] in E.
      rewrite cell_blank in E by auto. injection E as <-. now left. }
    destruct (all_trans_total n m (to_tab (repeat (repeat empty_trans m) n)) (rect_to_tab _ _ _ (proj1 W))) as (ts & Ets).
    exists ts. split; [exact Ets|].
    assert (U : forall t, In t ts -> is_undefined t = true).
    { intros t Ht. apply (proj1 (all_trans_In _ _ _ _ t Ets)) in Ht. destruct Ht as (i & j & Hi & Hj & Ec). unfold ttable, trans_row in *.
      rewrite C in Ec by auto. injection Ec as <-. reflexivity. }
    assert (L : length ts = n * m).
    { unfold all_trans in Ets. apply otraverse_length in Ets. rewrite Ets, map_length. unfold grid. rewrite prod_length, !seq_length. reflexivity. }
    cbn [empty_tm c_max_state c_max_symbol c_left_ok c_halts].
    assert (X : max_state_of ts = 0 /\ max_symbol_of ts = 0 /\ a_trans_defined ts = false /\ num_undefined ts = length ts).
    { clear -U. unfold a_trans_defined, num_undefined. induction ts as [|t ts IH]; [auto|]. rewrite max_state_cons, max_symbol_cons.
      pose proof (U t (or_introl eq_refl)) as Ut. destruct IH as (-> & -> & I3 & I4); [intros; apply U; simpl; auto|].
      unfold max_state_of, max_symbol_of. cbn [fold_left existsb filter]. rewrite Ut, I3. cbn [length negb orb]. now rewrite I4. }
    destruct X as (-> & -> & -> & ->). rewrite L. split; [lia|]. split; [lia|]. auto.
  - unfold blank_tm_enum, tm_from_quintuples. cbn [add_quints]. f_equal.
    apply (rect_ext n m); [apply fill_rect, rect_blank|apply rect_to_tab, rect_blank|]. intros i j Hi Hj. cbn [empty_tm c_trans].
    rewrite C by auto. rewrite cell_fill, cell_blank by auto. reflexivity.
Qed.

(** the start of lr_enum *)
Lemma like_1rb n m : 2 <= n -> 2 <= m -> let r := child_tm (empty_tm n m) 0 0 (Lookup 1 R (SRun 1) false) in
  like n m r /\ blank_tm_enum n m true = Some (to_tab (c_trans r)).
Proof.
  intros Hn Hm r. destruct (like_empty n m Hn Hm) as (L0 & _).
  assert (E0 : cell (c_trans (empty_tm n m)) 0 0 = Some empty_trans) by (cbn [empty_tm c_trans]; rewrite cell_blank by lia; reflexivity).
  destruct (like_child n m (empty_tm n m) 0 0 1 R 1 L0 E0 ltac:(lia) ltac:(lia)) as (L1 & Et). split; [exact L1|].
  unfold r. rewrite Et. unfold blank_tm_enum.
  destruct (tm_from_quintuples [Quint 0 0 (Some 1) R (SRun 1)] n m) as [root|] eqn:E.
  2:{ exfalso. revert E. apply quintuples_accepts. constructor; [|constructor]. unfold row_in_range. simpl. lia. }
  f_equal. destruct (quintuples_rect _ _ _ _ E) as (Hr & _).
  apply (rect_ext n m); [exact Hr|apply rect_set, rect_to_tab, rect_blank|]. intros i j Hi Hj.
  rewrite (quintuples_cells _ _ _ _ i j E Hi Hj). unfold set_trans. rewrite cell_set, cell_to_tab. cbn [empty_tm c_trans].
  rewrite cell_blank by auto. cbn [option_map]. unfold last_row, row_for, find, rev, app. cbn [q_state_in q_symbol_in q_symbol_out].
  rewrite andb_true_r. destruct (Nat.eqb_spec 0 i), (Nat.eqb_spec 0 j); cbn [andb]; subst; auto.
Qed.

(** the children of the C++ program are those of the Python program *)
Lemma expand_like n m allow tm i j : 2 <= n -> 2 <= m -> like n m tm -> cell (c_trans tm) i j = Some empty_trans ->
  (forall x, In x (expand_cpp allow tm (i, j)) -> like n m x) /\
  exists l, enum_children (to_tab (c_trans tm)) n m allow i j = Some l /\
    Permutation (map (fun x => to_tab (c_trans x)) (expand_cpp allow tm (i, j))) l.
Proof.
  intros Hn Hm Hl Ec. pose proof Hl as [Hs1 Hs2 W Hrun (ts & Ets & E1 & E2 & E3 & E4)].
  unfold enum_children, expand_cpp. rewrite Ets, E4.
  replace (1 <? Z.of_nat (num_undefined ts))%Z with (Nat.ltb 1 (num_undefined ts))
    by (destruct (Nat.ltb_spec 1 (num_undefined ts)), (Z.ltb_spec 1 (Z.of_nat (num_undefined ts))); lia).
  cbn [fst snd]. destruct (allow || Nat.ltb 1 (num_undefined ts))%bool; [|split; [intros x []|exists []; auto]].
  set (choices := flat_map (fun q => flat_map (fun w => flat_map (fun d => if (dir_eqb d R || c_left_ok tm)%bool then [(q, w, d)] else [])
    [R; L]) (seq 0 (S (c_max_symbol tm)))) (seq 0 (S (c_max_state tm)))).
  assert (EC : flat_map (fun next_state => flat_map (fun next_symbol => flat_map (fun next_move =>
      if (dir_eqb next_move R || c_left_ok tm)%bool then [child_tm tm i j (Lookup next_symbol next_move (SRun next_state) false)] else [])
      [R; L]) (seq 0 (S (c_max_symbol tm)))) (seq 0 (S (c_max_state tm)))
    = map (fun c => let '(q, w, d) := c in child_tm tm i j (Lookup w d (SRun q) false)) choices).
  { unfold choices. rewrite !flat_map_concat_map, concat_map, map_map. f_equal. apply map_ext. intros q.
    rewrite !flat_map_concat_map, concat_map, map_map. f_equal. apply map_ext. intros w.
    cbn [flat_map]. destruct (dir_eqb R R || c_left_ok tm)%bool, (dir_eqb L R || c_left_ok tm)%bool; reflexivity. }
  rewrite EC. clear EC.
  assert (IC : forall q w d, In (q, w, d) choices <-> q <= c_max_state tm /\ w <= c_max_symbol tm /\ (c_left_ok tm = false -> d = R)).
  { intros q w d. unfold choices. rewrite in_flat_map. split.
    - intros (q' & Hq & H). apply in_flat_map in H. destruct H as (w' & Hw & H). apply in_flat_map in H. destruct H as (d' & _ & H).
      apply in_seq in Hq, Hw. destruct (dir_eqb d' R || c_left_ok tm)%bool eqn:Ed; [|destruct H]. destruct H as [[= <- <- <-]|[]].
      split; [lia|]. split; [lia|]. intros F. rewrite F, orb_false_r in Ed. now apply dir_eqb_eq.
    - intros (H1 & H2 & H3). exists q. split; [apply in_seq; lia|]. apply in_flat_map. exists w. split; [apply in_seq; lia|].
      apply in_flat_map. exists d. split; [destruct d; simpl; auto|]. destruct (c_left_ok tm) eqn:F.
      + rewrite orb_true_r. simpl. auto.
      + rewrite H3 by reflexivity. simpl. auto. }
  assert (NC : NoDup choices).
  { unfold choices. apply NoDup_flat_map; [apply seq_NoDup| |].
    - intros q _. apply NoDup_flat_map; [apply seq_NoDup| |].
      + intros w _. cbn [flat_map]. destruct (dir_eqb R R || c_left_ok tm)%bool, (dir_eqb L R || c_left_ok tm)%bool; simpl;
          repeat constructor; simpl; intuition congruence.
      + intros w w' x _ _ H1 H2. apply in_flat_map in H1, H2. destruct H1 as (d1 & _ & H1), H2 as (d2 & _ & H2).
        destruct (dir_eqb d1 R || c_left_ok tm)%bool; [|destruct H1]. destruct (dir_eqb d2 R || c_left_ok tm)%bool; [|destruct H2].
        destruct H1 as [<-|[]], H2 as [[= -> ->]|[]]. reflexivity.
    - intros q q' x _ _ H1 H2. apply in_flat_map in H1, H2. destruct H1 as (w1 & _ & H1), H2 as (w2 & _ & H2).
      apply in_flat_map in H1, H2. destruct H1 as (d1 & _ & H1), H2 as (d2 & _ & H2).
      destruct (dir_eqb d1 R || c_left_ok tm)%bool; [|destruct H1]. destruct (dir_eqb d2 R || c_left_ok tm)%bool; [|destruct H2].
      destruct H1 as [<-|[]], H2 as [[= -> -> ->]|[]]. reflexivity. }
  assert (CR : forall q w d, In (q, w, d) choices -> q < n /\ w < m) by (intros q w d H; apply IC in H; lia).
  split.
  - intros x Hx. apply in_map_iff in Hx. destruct Hx as (((q, w), d) & <- & Hc). destruct (CR _ _ _ Hc).
    apply like_child; auto.
  - eexists. split; [reflexivity|]. rewrite map_map.
    assert (EM : map (fun x => to_tab (c_trans (let '(q, w, d) := x in child_tm tm i j (Lookup w d (SRun q) false)))) choices
      = map (fun c => let '(q, w, d) := c in set_trans (to_tab (c_trans tm)) i j w d q) choices).
    { apply map_ext_in. intros ((q, w), d) Hc. destruct (CR _ _ _ Hc). now apply (like_child n m). }
    rewrite EM. apply Permutation_map. apply NoDup_Permutation; [exact NC|apply NoDup_choices|].
    intros ((q, w), d). rewrite IC, In_choices, E1, E2, E3. split; intros (A & B & C); (repeat split; try lia; try tauto).
Qed.

(** ** the enumeration *)

Lemma forest_map {A B} (ea : A -> list A) (eb : B -> list B) (h : A -> B) (P : A -> Prop) :
  (forall x, P x -> (forall y, In y (ea x) -> P y) /\ Permutation (map h (ea x)) (eb (h x))) ->
  forall k js nodes, length nodes <= k -> Forall P js -> forest eb (map h js) nodes ->
  exists nodes', forest ea js nodes' /\ Permutation (map h nodes') nodes /\ Forall P nodes'.
Proof.
  intros H. induction k as [|k IH]; intros js nodes Hk HP F.
  - destruct js as [|j js]; inversion F; subst; [exists []; repeat constructor|]. simpl in Hk. lia.
  - destruct js as [|j js]; inversion F as [|? ? a b Fa Fb]; subst; [exists []; repeat constructor|].
    inversion HP as [|? ? Pj Pjs]; subst. destruct (H j Pj) as (Pc & Pm). simpl in Hk. rewrite app_length in Hk.
    destruct (forest_perm _ _ _ (Permutation_sym Pm) _ Fa) as (a' & Fa' & Pa).
    pose proof (Permutation_length Pa).
    destruct (IH (ea j) a') as (na & Fna & Pna & Qna); [lia|apply Forall_forall; exact Pc|exact Fa'|].
    destruct (IH js b) as (nb & Fnb & Pnb & Qnb); [lia|exact Pjs|exact Fb|].
    exists (j :: na ++ nb). split; [now constructor|]. split; [|constructor; auto; now apply Forall_app].
    simpl. constructor. rewrite map_app. apply Permutation_app; [|exact Pnb]. etransitivity; [exact Pna|now symmetry].
Qed.

Lemma enumerate_forest {F} (filter_tm : cpp_tm -> F -> option (option (nat * nat) * F)) allow decide next (P : cpp_tm -> Prop) :
  (forall tm s, P tm -> filter_tm tm s = Some (decide tm, next tm s)) ->
  let ex := fun tm => match decide tm with Some last => rev (expand_cpp allow tm last) | None => [] end in
  forall nodes js fuel s, forest ex js nodes -> Forall P nodes -> length nodes <= fuel ->
  cpp_enumerate filter_tm allow fuel js s = Done (fold_left (fun s tm => next tm s) nodes s).
Proof.
  intros H ex. assert (G : forall k nodes js fuel s, length nodes <= k -> forest ex js nodes -> Forall P nodes -> length nodes <= fuel ->
    cpp_enumerate filter_tm allow fuel js s = Done (fold_left (fun s tm => next tm s) nodes s)).
  { induction k as [|k IH]; intros nodes js fuel s Hk F0 HP Hf.
    - inversion F0; subst; [destruct fuel; reflexivity|]. simpl in Hk. lia.
    - inversion F0 as [|j js' a b Fa Fb]; subst; [destruct fuel; reflexivity|]. simpl in Hk, Hf. destruct fuel as [|fuel]; [lia|].
      inversion HP as [|? ? Pj Pab]; subst. cbn [cpp_enumerate]. rewrite (H _ s Pj).
      pose proof (forest_app ex _ _ _ _ Fa Fb) as Fab. unfold ex in Fab at 2.
      cbn [fold_left]. destruct (decide j) as [last|].
      + apply IH; auto; lia.
      + apply (IH (a ++ b)); auto; lia. }
  intros nodes js fuel s. apply (G (length nodes)). lia.
Qed.

Section LB.
  Variables n m max_steps : nat.
  Hypothesis Hn : 2 <= n.
  Hypothesis Hm : 2 <= m.

  Definition lb_verdict (tab : ttable) : option (nat * nat) :=
    option_map (fun r => (snd (fst r), snd r)) (stop_at (table_of tab) max_steps initial).
  Definition halt_steps (tm : cpp_tm) : option nat :=
    option_map (fun r => S (fst (fst r))) (stop_at (table_of (to_tab (c_trans tm))) max_steps initial).
  Definition lb_next (tm : cpp_tm) (e : lazy_beaver) : lazy_beaver :=
    match halt_steps tm with
    | Some k => if existsb (Nat.eqb k) (lb_realized e) then LazyBeaver (lb_realized e) (lb_witness e) (lb_nonhalt e) (S (lb_total e)) (S (lb_halt e))
                else LazyBeaver (k :: lb_realized e) (lb_witness e ++ [(k, tm)]) (lb_nonhalt e) (S (lb_total e)) (S (lb_halt e))
    | None => LazyBeaver (lb_realized e) (lb_witness e) (lb_nonhalt e ++ [tm]) (S (lb_total e)) (lb_halt e)
    end.

  Lemma lb_filter_spec tm e : like n m tm -> lb_filter max_steps tm e = Some (lb_verdict (to_tab (c_trans tm)), lb_next tm e).
  Proof.
    intros Hl. unfold lb_filter, cs_seek, lb_verdict, lb_next, halt_steps.
    destruct (turns_spec n m tm (lk_wf _ _ _ Hl) (max_steps - cs_steps cs_init) cs_init initial srel_init) as (s & -> & H).
    { simpl. lia. } { intros z. simpl. lia. }
    change (cs_steps cs_init) with 0 in *. rewrite Nat.sub_0_r in *.
    destruct (stop_at (table_of (to_tab (c_trans tm))) max_steps initial) as [((i, q), a)|]; cbn [option_map fst snd].
    - destruct H as (H1 & H2 & H3). unfold cs_halted. rewrite H1, H2, H3. reflexivity.
    - destruct H as (c' & H1 & (H2 & _) & H3). unfold cs_halted. rewrite H2. reflexivity.
  Qed.

  Lemma verdict_sound tab i j : lb_verdict tab = Some (i, j) -> exists k b t, halts_at (table_of tab) initial k i j b t.
  Proof.
    unfold lb_verdict. destruct (stop_at (table_of tab) max_steps initial) as [((k, q), a)|] eqn:E; [|discriminate]. simpl.
    intros [= <- <-]. exists (S k). eapply stop_at_halts; eauto.
  Qed.

  Lemma stop_cell tm i j : like n m tm -> lb_verdict (to_tab (c_trans tm)) = Some (i, j) -> cell (c_trans tm) i j = Some empty_trans.
  Proof.
    intros Hl. unfold lb_verdict. destruct (stop_at _ max_steps initial) as [((k, q), a)|] eqn:E; [|discriminate]. simpl.
    intros [= <- <-]. destruct (stop_at_some _ _ _ _ _ _ E) as (_ & c' & w & d & e & Es & Eq & Ea & ET).
    destruct (in_range_steps n m _ (wf_in_range _ _ _ (lk_wf _ _ _ Hl)) k initial c' ltac:(simpl; lia) ltac:(intros z; simpl; lia) Es) as (Bq & Ba).
    rewrite Eq in Bq. pose proof (Ba (hd c')) as Ba'. rewrite Ea in Ba'.
    destruct (rect_cell n m (c_trans tm) q a (proj1 (lk_wf _ _ _ Hl)) Bq Ba') as (x & Ex).
    rewrite (table_to_tab _ _ _ _ _ _ (lk_wf _ _ _ Hl) Ex) in ET. rewrite Ex. destruct (lk_run _ _ _ Hl _ _ _ Ex) as [-> |(q' & Eq')]; [reflexivity|].
    rewrite Eq' in ET. discriminate.
  Qed.

  Definition lb_expand (allow : bool) (tm : cpp_tm) : list cpp_tm :=
    match lb_verdict (to_tab (c_trans tm)) with Some last => rev (expand_cpp allow tm last) | None => [] end.

  Lemma expand_map allow tm : like n m tm -> (forall y, In y (lb_expand allow tm) -> like n m y) /\
    Permutation (map (fun x => to_tab (c_trans x)) (lb_expand allow tm)) (expand_tm n m allow lb_verdict (to_tab (c_trans tm))).
  Proof.
    intros Hl. unfold lb_expand, expand_tm. destruct (lb_verdict (to_tab (c_trans tm))) as [(i, j)|] eqn:E; [|split; [intros y []|constructor]].
    destruct (expand_like n m allow tm i j Hn Hm Hl (stop_cell _ _ _ Hl E)) as (H1 & l & -> & H2). split.
    - intros y Hy. apply H1. now apply in_rev.
    - rewrite map_rev. etransitivity; [symmetry; apply Permutation_rev|exact H2].
  Qed.

  Lemma early_found allow first root tabs : blank_tm_enum n m first = Some root -> forest (expand_tm n m allow lb_verdict) [root] tabs ->
    forall tab k i j b t, node n m allow first tab -> halts_at (table_of tab) initial k i j b t -> k <= max_steps -> In tab tabs.
  Proof.
    intros Er F. assert (G : forall tab, node n m allow first tab -> (exists a c, tinv n m a c tab) /\
      forall k i j b t, halts_at (table_of tab) initial k i j b t -> k <= max_steps -> In tab tabs).
    { induction 1 as [tab E|tab k0 i0 j0 b0 t0 l tab' N ((a & c & IH1) & IH2) Hh El Hin].
      - rewrite Er in E. injection E as <-. split.
        + destruct (root_tinv n m first root Er) as (H & _); [lia|lia|]. eauto.
        + intros. eapply forest_In_self; eauto. now left.
      - assert (Hc : child n m allow tab tab') by (exists k0, i0, j0, b0, t0, l; auto).
        destruct (child_spec n m a c allow tab tab' IH1 Hc) as (h & x & w0 & d0 & w & d & q & Ex & Es & -> & _ & _ & _ & _ & Ht & He & Eg & _).
        split; [eauto|]. intros k i j b t Hh' Hk.
        assert (Hx : halts_at (table_of tab) initial (S h) (st x) (tp x (hd x)) false (put (tp x) (hd x) w0))
          by (exists h, x, w0, d0; repeat split; auto).
        destruct (halts_at_fun _ _ _ _ _ _ _ _ _ _ _ _ Hh Hx) as (-> & _ & _ & _ & _).
        pose proof (extends_steps _ _ He _ _ _ Ex) as Ex'.
        assert (Lt : S h < k).
        { destruct Hh' as (h' & x' & w' & d' & -> & Eh' & -> & -> & Es' & _).
          destruct (Nat.le_gt_cases h' h) as [Hle|Hgt]; [|lia]. exfalso.
          destruct (Nat.eq_dec h' h) as [-> |Hne].
          - rewrite Ex' in Eh'. injection Eh' as <-. rewrite Eg in Es'. discriminate.
          - destruct (steps_le _ h (S h') _ _ ltac:(lia) Ex') as (z & Ez). rewrite steps_S, Eh' in Ez. unfold step in Ez.
            rewrite Es' in Ez. discriminate. }
        eapply (forest_closed (expand_tm n m allow lb_verdict)); [exact F|eapply IH2; [exact Hh|lia]|].
        unfold expand_tm, lb_verdict. rewrite (halts_stop_at _ max_steps _ _ _ _ _ Hh ltac:(lia)). cbn [option_map fst snd].
        rewrite El. exact Hin. }
    intros tab k i j b t N. now apply G.
  Qed.

  Lemma late_found allow first root tabs : blank_tm_enum n m first = Some root -> forest (expand_tm n m allow lb_verdict) [root] tabs ->
    forall tab c, node n m allow first tab -> steps (table_of tab) max_steps initial = Some c ->
    exists tab0, In tab0 tabs /\ extends (table_of tab0) (table_of tab) /\ steps (table_of tab0) max_steps initial = Some c.
  Proof.
    intros Er F tab c N. revert c. induction N as [tab E|tab k0 i0 j0 b0 t0 l tab' N IH Hh El Hin]; intros c Es.
    - rewrite Er in E. injection E as <-. exists root. split; [eapply forest_In_self; eauto; now left|]. split; [intros a b' w d q H; exact H|exact Es].
    - destruct (Nat.le_gt_cases k0 max_steps) as [Hk|Hk].
      + exists tab'. split; [|split; [intros a b' w d q H; exact H|exact Es]].
        eapply (forest_closed (expand_tm n m allow lb_verdict)); [exact F|eapply early_found; eauto|].
        unfold expand_tm, lb_verdict. rewrite (halts_stop_at _ max_steps _ _ _ _ _ Hh Hk). cbn [option_map fst snd]. rewrite El. exact Hin.
      + assert (Hc : child n m allow tab tab') by (exists k0, i0, j0, b0, t0, l; auto).
        destruct (node_tinv n m allow first tab ltac:(lia) ltac:(lia) N) as (a & c1 & IH1).
        destruct (child_spec n m a c1 allow tab tab' IH1 Hc) as (h & x & w0 & d0 & w & d & q & Ex & Es' & -> & _ & _ & _ & _ & Ht & He & Eg & _).
        assert (exists y, steps (table_of tab) max_steps initial = Some y) as (y & Ey).
        { destruct Hh as (h' & x' & w' & d' & -> & Eh' & _). apply (steps_le _ h' max_steps _ _ ltac:(lia) Eh'). }
        pose proof (extends_steps _ _ He _ _ _ Ey) as Ey'. rewrite Es in Ey'. injection Ey' as <-.
        destruct (IH c Ey) as (tab0 & H1 & H2 & H3). exists tab0. split; [exact H1|]. split; [|exact H3].
        intros a' b' w' d' q' H. now apply He, H2.
  Qed.

  (** the machines that are run *)
  Lemma cpp_runs allow first r : like n m r -> blank_tm_enum n m first = Some (to_tab (c_trans r)) ->
    exists nodes, Forall (like n m) nodes /\ forest (lb_expand allow) [r] nodes /\
    NoDup (map (fun x => to_tab (c_trans x)) nodes) /\
    (forall tm, In tm nodes -> node n m allow first (to_tab (c_trans tm))) /\
    (forall tab k i j b t, node n m allow first tab -> halts_at (table_of tab) initial k i j b t -> k <= max_steps ->
      exists tm, In tm nodes /\ to_tab (c_trans tm) = tab) /\
    (forall tab c, node n m allow first tab -> steps (table_of tab) max_steps initial = Some c ->
      exists tm, In tm nodes /\ extends (table_of (to_tab (c_trans tm))) (table_of tab) /\
        steps (table_of (to_tab (c_trans tm))) max_steps initial = Some c).
  Proof.
    intros L0 E0.
    destruct (C44_ends n m allow first lb_verdict _ ltac:(lia) ltac:(lia) E0 verdict_sound) as (tabs & Ft).
    destruct (forest_map (lb_expand allow) (expand_tm n m allow lb_verdict) (fun x => to_tab (c_trans x)) (like n m) (expand_map allow)
      (length tabs) [r] tabs ltac:(lia) (Forall_cons _ L0 (Forall_nil _)) Ft) as (nodes & Fn & Pn & Ln).
    destruct (enum_tree n m allow lb_verdict verdict_sound first _ tabs ltac:(lia) ltac:(lia) E0 Ft) as (T1 & T2 & _).
    exists nodes. split; [exact Ln|]. split; [exact Fn|].
    split; [apply (Permutation_NoDup (Permutation_sym Pn)), T1|]. split.
    { intros tm H. apply T2. apply (Permutation_in _ Pn). apply in_map_iff. eauto. }
    split; [|intros tab c N Es; destruct (late_found _ _ _ tabs E0 Ft _ _ N Es) as (tab0 & Hin & Hx & Es0);
      apply (Permutation_in _ (Permutation_sym Pn)) in Hin; apply in_map_iff in Hin; destruct Hin as (tm & <- & H); eauto].
    intros tab k i j b t N Hh Hk. pose proof (early_found _ _ _ tabs E0 Ft _ _ _ _ _ _ N Hh Hk) as Hin.
    apply (Permutation_in _ (Permutation_sym Pn)) in Hin. apply in_map_iff in Hin. destruct Hin as (tm & E & H). eauto.
  Qed.

  Lemma lb_runs : exists nodes, Forall (like n m) nodes /\
    (forall fuel, length nodes <= fuel -> cpp_enumerate (lb_filter max_steps) false fuel [empty_tm n m] lb_init
      = Done (fold_left (fun s tm => lb_next tm s) nodes lb_init)) /\
    NoDup (map (fun x => to_tab (c_trans x)) nodes) /\
    (forall tm, In tm nodes -> node n m false false (to_tab (c_trans tm))) /\
    (forall tab k i j b t, node n m false false tab -> halts_at (table_of tab) initial k i j b t -> k <= max_steps ->
      exists tm, In tm nodes /\ to_tab (c_trans tm) = tab) /\
    (forall tab c, node n m false false tab -> steps (table_of tab) max_steps initial = Some c ->
      exists tm, In tm nodes /\ extends (table_of (to_tab (c_trans tm))) (table_of tab) /\
        steps (table_of (to_tab (c_trans tm))) max_steps initial = Some c).
  Proof.
    destruct (like_empty n m Hn Hm) as (L0 & E0). destruct (cpp_runs false false _ L0 E0) as (nodes & Ln & Fn & H).
    exists nodes. split; [exact Ln|]. split; [|exact H].
    intros fuel Hf. apply (enumerate_forest _ false (fun tm => lb_verdict (to_tab (c_trans tm))) lb_next (like n m)); auto.
    intros; now apply lb_filter_spec.
  Qed.
End LB.
