(** * Tree normal form and the tree *)
Require Import ZArith List Lia Bool Arith Permutation.
From Verif Require Import Spec_TM Spec_Rename M_Turing_Machine M_Direct M_IO M_Enum P_Macro P_Direct P_Quint P_IO P_Tree
  P_Complete P_Unique P_Complete2 P_Permute P_TNF.
Import ListNotations.
Open Scope nat_scope.

(** ** to_TNF *)

Lemma ord_transfer n m so syo b tab tab' (obs : config -> nat) (h : list nat) k :
  basic_table n m tab -> Permutation so (seq 0 n) -> Permutation syo (seq 0 m) -> 0 < n -> 0 < m ->
  nth 0 so 0 = 0 -> nth 0 syo 0 = 0 -> permuted n m so syo b tab tab' ->
  Permutation h (seq 0 k) ->
  (forall c c', renames (fun i => nth i so 0) (fun j => nth j syo 0) b c c' -> obs c' = nth (obs c) h 0) ->
  (forall c, st c < n -> (forall z, tp c z < m) -> obs c < k) ->
  ord (table_of tab) obs h -> in_first_order (table_of tab') obs.
Proof.
  intros B Ps Py Hn Hm Z1 Z2 Hp Ph Hobs Hk Ho t x (c & Ec & Ex) y Hy.
  assert (R0 : renames (fun i => nth i so 0) (fun j => nth j syo 0) b initial initial) by (apply renames_initial; auto).
  assert (Hrun : forall t, match steps (table_of tab') t initial, steps (table_of tab) t initial with
    | Some c1, Some c1' => renames (fun i => nth i so 0) (fun j => nth j syo 0) b c1 c1' /\ st c1 < n /\ (forall z, tp c1 z < m)
    | None, None => True | _, _ => False end).
  { intros t0. apply (permuted_run n m so syo b tab tab' B Ps Py Hp t0 initial initial R0); auto. }
  pose proof (Hrun t) as H. rewrite Ec in H. destruct (steps (table_of tab) t initial) as [c'|] eqn:Ec'; [|contradiction].
  destruct H as (R1 & H1 & H2). pose proof (Hk c H1 H2) as Hlt. assert (Lh : length h = k) by (rewrite (Permutation_length Ph); apply seq_length).
  destruct (Ho x t) with (q := y) as (t' & Ht' & c1 & Ec1 & E1).
  - lia.
  - exists c'. split; auto. now rewrite (Hobs _ _ R1), Ex.
  - exact Hy.
  - exists t'. split; auto. pose proof (Hrun t') as H'. rewrite Ec1 in H'.
    destruct (steps (table_of tab') t' initial) as [c2|] eqn:Ec2; [|contradiction]. destruct H' as (R2 & H1' & H2').
    exists c2. split; auto. rewrite (Hobs _ _ R2) in E1.
    destruct (order_permutes k h Ph) as (Hinj & _). apply Hinj; auto. lia.
Qed.

Theorem to_TNF_ok n m tab mx : 0 < n -> 0 < m -> basic_table n m tab ->
  exists r, to_TNF tab n m mx = Some r /\
  match r with
  | Some tab' => exists so syo b, Permutation so (seq 0 n) /\ Permutation syo (seq 0 m) /\
      nth 0 so 0 = 0 /\ nth 0 syo 0 = 0 /\ permuted n m so syo b tab tab' /\
      in_first_order (table_of tab') st /\ in_first_order (table_of tab') read /\
      (forall w d q, table_of tab' 0 0 = Go w d q -> d = R)
  | None => (exists x, x < n /\ forall t, t <= S mx -> ~ visits (table_of tab) st t x) \/
            (exists x, x < m /\ forall t, t <= S mx -> ~ visits (table_of tab) read t x)
  end.
Proof.
  intros Hn Hm B. unfold to_TNF. destruct (rect_cell n m tab 0 0 (proj1 B) Hn Hm) as (t0 & E0).
  assert (E0' : cell_at tab 0 0 = Some t0) by (rewrite cell_at_cell; exact E0). rewrite E0'.
  pose proof (tnf_loop_ok n m tab mx Hn Hm B (S mx) (ds_new (simple_machine tab)) ([0], seq 1 (n - 1)) ([0], seq 1 (m - 1))) as H.
  destruct (tnf_loop _ mx (S mx) _ _ _) as [[(so & syo)|]|].
  - destruct H as (Ps & Py & Z1 & Z2 & O1 & O2); try (apply OI_start; auto); try (simpl; lia).
    { unfold bsim_ok. apply (ds_new_ok n m (fix_table tab)). now apply fix_wf. }
    set (b := dir_eqb (t_dir t0) L).
    destruct (permute_table_ok n m tab so syo b B Ps Py) as (tab' & -> & Hp).
    eexists. split; [reflexivity|]. cbn. exists so, syo, b. repeat (split; [assumption|]). split; [|split].
    + apply (ord_transfer n m so syo b tab tab' st so n); auto. intros c c' (Hs & _). exact Hs.
    + apply (ord_transfer n m so syo b tab tab' read syo m); auto.
      * intros c c' Hr. exact (renames_read _ _ _ _ _ Hr).
      * intros c _ Hc. apply Hc.
    + intros w d q E. pose proof (permuted_cells _ _ _ _ _ _ _ 0 0 B Ps Py Hp Hn Hm) as Hc. rewrite Z1, Z2, E in Hc.
      rewrite table_of_cell, E0 in Hc. pose proof (proj2 B _ _ _ E0) as Hb. unfold basic_cell in Hb.
      destruct (t_cond t0) eqn:Et; try contradiction. destruct Hb as (_ & q0 & Eq0 & _). rewrite Eq0 in Hc.
      destruct Hc as (_ & Hd & _). unfold b in Hd. destruct (t_dir t0), d; simpl in Hd; congruence.
  - eexists. split; [reflexivity|]. apply H; try (apply OI_start; auto); try (simpl; lia).
    unfold bsim_ok. apply (ds_new_ok n m (fix_table tab)). now apply fix_wf.
  - exfalso. apply H; try (apply OI_start; auto); try (simpl; lia).
    unfold bsim_ok. apply (ds_new_ok n m (fix_table tab)). now apply fix_wf.
Qed.

(** ** the tables of the tree are numbered by first use *)

Definition writes (T : table) (t w : nat) : Prop :=
  exists c d q, steps T t initial = Some c /\ T (st c) (read c) = Go w d q.
(** the symbols other than blank are numbered in the order in which they are first written *)
Definition writes_in_order (T : table) : Prop :=
  forall t w, writes T t w -> forall v, 0 < v < w -> exists t', t' < t /\ writes T t' v.

Record numbered (n m a c : nat) (tab : ttable) : Prop := {
  nu_inv : tinv n m a c tab;
  nu_states : forall q, q < a -> exists t, visits (table_of tab) st t q;
  nu_symbols : forall w, 0 < w < c -> exists t, writes (table_of tab) t w;
  nu_so : in_first_order (table_of tab) st;
  nu_syo : writes_in_order (table_of tab);
  nu_used : forall i j w d q, table_of tab i j = Go w d q ->
    exists t x, steps (table_of tab) t initial = Some x /\ st x = i /\ read x = j;
  nu_first : forall w d q, table_of tab 0 0 = Go w d q -> d = R }.

Lemma writes_step T t w : writes T t w -> steps T (S t) initial <> None.
Proof. intros (c & d & q & E & G). rewrite steps_S, E. unfold step. unfold read in G. rewrite G. discriminate. Qed.

Lemma numbered_root n m first root : blank_tm_enum n m first = Some root -> 0 < n -> 0 < m ->
  exists a c, numbered n m a c root.
Proof.
  intros E Hn Hm. destruct (root_tinv _ _ _ _ E Hn Hm) as (H & H00). eexists _, _.
  assert (Hb : forall t c, steps (table_of root) t initial = Some c -> st c < (if first then 2 else 1)).
  { intros t c Ec. now apply (tinv_bounds _ _ _ _ _ _ _ H) in Ec. }
  assert (Honly : forall i j w d q, table_of root i j = Go w d q -> first = true /\ i = 0 /\ j = 0).
  { intros i j w d q Eg. unfold blank_tm_enum in E. pose proof (quintuples_rect _ _ _ _ E) as (Hr & _).
    rewrite table_of_cell in Eg. destruct (cell root i j) as [t|] eqn:Ec; [|discriminate].
    destruct (cell_bounds _ _ _ _ _ _ Hr Ec) as (Hi & Hj). pose proof (quintuples_cells _ _ _ _ i j E Hi Hj) as Hc.
    unfold ttable, trans_row in *. rewrite Ec in Hc. injection Hc as ->. destruct first; [|discriminate].
    split; auto. unfold last_row, row_for, find, rev, app in Eg. cbn [q_state_in q_symbol_in q_symbol_out] in Eg. rewrite andb_true_r in Eg.
    destruct (Nat.eqb_spec 0 i), (Nat.eqb_spec 0 j); cbn [andb] in Eg; auto; discriminate. }
  constructor.
  - exact H.
  - intros q Hq. destruct q as [|q].
    + exists 0, initial. auto.
    + destruct first; [|lia]. assert (q = 0) as -> by lia. exists 1. exists (Cfg 1 1 (put (tp initial) 0 1)).
      split; auto. simpl. unfold step. simpl. now rewrite H00.
  - intros w Hw. destruct first; [|lia]. assert (w = 1) as -> by lia. exists 0, initial, R, 1. auto.
  - intros t x (c & Ec & <-) y Hy. specialize (Hb _ _ Ec). destruct first; [|lia]. exists 0.
    split; [|exists initial; split; [reflexivity|simpl; lia]]. destruct t; [|lia]. simpl in Ec. injection Ec as <-. simpl in Hy. lia.
  - intros t w (c & d & q & Ec & Eg) v Hv. apply (tinv_go _ _ _ _ _ _ _ _ _ _ H) in Eg. destruct first; lia.
  - intros i j w d q Eg. destruct (Honly _ _ _ _ _ Eg) as (_ & -> & ->). exists 0, initial. auto.
  - intros w d q Eg. rewrite H00 in Eg. destruct first; congruence.
Qed.

Lemma numbered_child n m allow a c tab tab' : numbered n m a c tab -> child n m allow tab tab' ->
  exists a' c', numbered n m a' c' tab'.
Proof.
  intros Hnu Hch. destruct (child_spec _ _ _ _ _ _ _ (nu_inv _ _ _ _ _ Hnu) Hch)
    as (k & x & w0 & d0 & w & d & q & Ek & Es & Etab & Hw & Hq & _ & _ & H' & He & Eg & Hd).
  set (T := table_of tab) in *. set (T' := table_of tab') in *.
  assert (Tn : steps T (S k) initial = None) by (rewrite steps_S, Ek; unfold step; now rewrite Es).
  assert (Tle : forall t y, steps T t initial = Some y -> t <= k).
  { intros t y E. destruct (le_lt_dec t k); auto. rewrite (steps_none _ _ t _ Tn) in E by lia. discriminate. }
  assert (Tsome : forall t, t <= k -> exists y, steps T t initial = Some y).
  { intros t Ht. destruct (steps T t initial) eqn:E; eauto. rewrite (steps_none _ _ k _ E) in Ek by lia. discriminate. }
  assert (Same : forall t y, t <= k -> steps T' t initial = Some y -> steps T t initial = Some y).
  { intros t y Ht E. destruct (Tsome t Ht) as (y' & E'). pose proof (extends_steps _ _ He _ _ _ E'). congruence. }
  assert (Vup : forall t y, visits T st t y -> visits T' st t y).
  { intros t y (z & E & Ey). exists z. split; auto. now apply (extends_steps _ _ He). }
  assert (Wup : forall t y, writes T t y -> writes T' t y /\ t < k).
  { intros t y Hwr. pose proof (writes_step _ _ _ Hwr) as Hn. destruct Hwr as (z & d1 & q1 & E & G). split.
    - exists z, d1, q1. split; [now apply (extends_steps _ _ He)|]. now apply He.
    - destruct (le_lt_dec (S t) k); [lia|]. exfalso. apply Hn. apply (steps_none _ (S k)); auto. }
  assert (Ek' : steps T' k initial = Some x) by now apply (extends_steps _ _ He).
  assert (Ek1 : steps T' (S k) initial = Some (Cfg q (hd x + dz d)%Z (put (tp x) (hd x) w))).
  { rewrite steps_S, Ek'. unfold step. now rewrite Eg. }
  eexists _, _. constructor.
  - exact H'.
  - intros y Hy. destruct (le_lt_dec a y) as [Hle|Hlt].
    + assert (y = q) as -> by lia. exists (S k), (Cfg q (hd x + dz d)%Z (put (tp x) (hd x) w)). auto.
    + destruct (nu_states _ _ _ _ _ Hnu y Hlt) as (t & Hv). exists t. auto.
  - intros y Hy. destruct (le_lt_dec c y) as [Hle|Hlt].
    + assert (y = w) as -> by lia. exists k, x, d, q. auto.
    + destruct (nu_symbols _ _ _ _ _ Hnu y ltac:(lia)) as (t & Hv). exists t. now apply Wup.
  - intros t y Hv z Hz. destruct (le_lt_dec t k) as [Hle|Hgt].
    + destruct Hv as (e & Ee & Ey). destruct (nu_so _ _ _ _ _ Hnu t y) with (y := z) as (t' & Ht' & Hv'); auto.
      { exists e. split; auto. } exists t'. auto.
    + destruct Hv as (e & Ee & Ey). apply (tinv_bounds _ _ _ _ _ _ _ H') in Ee. destruct Ee as (He1 & _).
      destruct (nu_states _ _ _ _ _ Hnu z ltac:(lia)) as (t' & Hv'). exists t'. split; auto.
      destruct Hv' as (e' & Ee' & _). apply Tle in Ee'. lia.
  - intros t y (e & d1 & q1 & Ee & Ge) v Hv. destruct (le_lt_dec k t) as [Hge|Hlt].
    + assert (Hvc : v < c).
      { destruct (Nat.eq_dec t k) as [-> |Hne].
        - assert (e = x) as -> by (unfold T' in *; congruence). unfold read in Ge. unfold T' in Eg; rewrite Eg in Ge. injection Ge as -> -> ->. lia.
        - apply (tinv_go _ _ _ _ _ _ _ _ _ _ H') in Ge. lia. }
      destruct (nu_symbols _ _ _ _ _ Hnu v ltac:(lia)) as (t' & Hv'). apply Wup in Hv'. exists t'. split; [lia|tauto].
    + pose proof (Same t e ltac:(lia) Ee) as Ee'.
      assert (Hwr : writes T t y).
      { destruct (Tsome (S t) ltac:(lia)) as (e2 & E2). pose proof E2 as E3. rewrite steps_S, Ee' in E2. unfold step in E2.
        destruct (T (st e) (tp e (hd e))) as [w2 d2 q2|] eqn:G2; [|discriminate]. exists e, d2, q2. split; auto.
        pose proof (He _ _ _ _ _ G2) as G3. unfold read, T' in *. rewrite G3 in Ge. injection Ge as -> -> ->. exact G2. }
      destruct (nu_syo _ _ _ _ _ Hnu t y Hwr v Hv) as (t' & Ht' & Hv'). exists t'. split; auto. now apply Wup.
  - intros i j w1 d1 q1 E1. destruct (Nat.eq_dec i (st x)) as [Ei|Hi]; [destruct (Nat.eq_dec j (tp x (hd x))) as [Ej|Hj]|].
    + exists k, x. auto.
    + unfold T' in E1. rewrite Etab, table_set_other in E1 by congruence.
      destruct (nu_used _ _ _ _ _ Hnu _ _ _ _ _ E1) as (t & y & Ey & H1). exists t, y. split; auto. now apply (extends_steps _ _ He).
    + unfold T' in E1. rewrite Etab, table_set_other in E1 by congruence.
      destruct (nu_used _ _ _ _ _ Hnu _ _ _ _ _ E1) as (t & y & Ey & H1). exists t, y. split; auto. now apply (extends_steps _ _ He).
  - intros w1 d1 q1 E1. destruct (T 0 0) as [w2 d2 q2|] eqn:E00.
    + pose proof (He _ _ _ _ _ E00) as E2. assert (X : Go w2 d2 q2 = Go w1 d1 q1) by (rewrite <- E1, <- E2; reflexivity). injection X as <- <- <-. eapply nu_first; eauto.
    + assert (k = 0) as ->.
      { destruct k; auto. destruct (Tsome 1 ltac:(lia)) as (y & Ey). simpl in Ey. unfold step in Ey. simpl in Ey. rewrite E00 in Ey. discriminate. }
      simpl in Ek. injection Ek as <-. simpl in Eg. assert (X : Go w d q = Go w1 d1 q1) by (rewrite <- E1, <- Eg; reflexivity). injection X as <- <- <-. apply Hd.
      intros i j w3 d3 q3 E2. destruct (nu_used _ _ _ _ _ Hnu _ _ _ _ _ E2) as (t & y & Ey & Hi & Hj).
      pose proof (Tle _ _ Ey). assert (t = 0) as -> by lia. simpl in Ey. injection Ey as <-. simpl in Hi, Hj. subst i j. unfold T in *. simpl in *. congruence.
Qed.

Lemma node_numbered n m allow first tab : 0 < n -> 0 < m -> node n m allow first tab -> exists a c, numbered n m a c tab.
Proof.
  intros Hn Hm H. induction H as [tab E|tab k i j b t l tab' H (a & c & IH) Hh El Hin].
  - eapply numbered_root; eauto.
  - eapply numbered_child; [exact IH|]. exists k, i, j, b, t, l. eauto.
Qed.

(** ** a machine numbered by first use contains the table under the same names *)

Lemma tape_written (T : table) : forall t c, steps T t initial = Some c -> forall z, tp c z = 0 \/ exists t', t' < t /\ writes T t' (tp c z).
Proof.
  induction t as [|t IH]; intros c E z.
  - simpl in E. injection E as <-. auto.
  - rewrite steps_S in E. destruct (steps T t initial) as [c0|] eqn:E0; [|discriminate]. unfold step in E.
    destruct (T (st c0) (tp c0 (hd c0))) as [w d q|] eqn:G; [|discriminate]. injection E as <-. simpl. unfold put.
    destruct (Z.eqb z (hd c0)).
    + right. exists t. split; auto. exists c0, d, q. auto.
    + destruct (IH c0 eq_refl z) as [H|(t' & Ht & H)]; auto. right. exists t'. split; auto.
Qed.

Lemma same_names n m a c tab f g b (M : table) : numbered n m a c tab ->
  sub_renamed f g b (table_of tab) M -> f 0 = 0 -> g 0 = 0 -> injective_below n f -> injective_below m g ->
  in_first_order M st -> writes_in_order M -> (forall w d q, M 0 0 = Go w d q -> d = R) ->
  extends (table_of tab) M.
Proof.
  intros Hnu Hsub F0 G0 Fi Gi Mo Mw Md. set (T := table_of tab) in *. pose proof (nu_inv _ _ _ _ _ Hnu) as Hinv.
  destruct (ti_pos _ _ _ _ _ Hinv) as (Ha & Hc).
  assert (Hrun : forall t x, steps T t initial = Some x -> exists x', steps M t initial = Some x' /\ renames f g b x x').
  { intros t x E. apply (renames_steps _ _ _ _ _ Hsub t initial initial x); auto. now apply renames_initial. }
  assert (Hlt : forall t x, steps T t initial = Some x -> st x < n).
  { intros t x E. apply (tinv_bounds _ _ _ _ _ _ _ Hinv) in E. lia. }
  assert (Hdown : forall t t' x, steps T t initial = Some x -> t' < t -> exists x', steps T t' initial = Some x').
  { intros t t' x E Ht. destruct (steps T t' initial) eqn:E'; eauto. rewrite (steps_none _ _ t _ E') in E by lia. discriminate. }
  assert (HF : forall t x, steps T t initial = Some x -> f (st x) = st x).
  { induction t as [t IH] using lt_wf_ind. intros x E.
    destruct (Hrun t x E) as (x' & E' & Rx). pose proof Rx as (Rs & _).
    destruct (lt_eq_lt_dec (f (st x)) (st x)) as [[Hl|He]|Hg]; auto; exfalso.
    - destruct (nu_so _ _ _ _ _ Hnu t (st x)) with (y := f (st x)) as (t' & Ht' & y & Ey & Ey'); [exists x; auto|auto|].
      pose proof (IH t' Ht' y Ey) as X. rewrite Ey' in X. apply Fi in X; [lia| |]; eauto. rewrite <- Ey'. eauto.
    - destruct (Mo t (f (st x))) with (y := st x) as (t' & Ht' & y' & Ey & Ey'); [exists x'; auto|auto|].
      destruct (Hdown t t' x E Ht') as (y & Ey1). destruct (Hrun t' y Ey1) as (y2 & Ey2 & Ry & _).
      assert (y2 = y') as -> by congruence. rewrite (IH t' Ht' y Ey1) in Ry.
      (* st y = st x, visited before *)
      assert (X : f (st x) = st x) by (replace (st x) with (st y) by congruence; eauto). lia. }
  assert (HG : forall t w, writes T t w -> g w = w).
  { induction t as [t IH] using lt_wf_ind. intros w Hwr. pose proof Hwr as (x & d & q & E & G).
    assert (Hwm : w < m) by (apply (tinv_go _ _ _ _ _ _ _ _ _ _ Hinv) in G; lia).
    destruct (Hrun t x E) as (x' & E' & Rx). pose proof (Hsub _ _ _ _ _ G) as GM.
    assert (HwM : writes M t (g w)).
    { exists x', (mirror_dir b d), (f q). split; auto. unfold read. rewrite (renames_read _ _ _ _ _ Rx). destruct Rx as (-> & _). exact GM. }
    destruct (Nat.eq_dec w 0) as [-> |Hw0]; auto.
    destruct (lt_eq_lt_dec (g w) w) as [[Hl|He]|Hg]; auto; exfalso.
    - destruct (Nat.eq_dec (g w) 0) as [Hz|Hz].
      + rewrite <- G0 in Hz. apply Gi in Hz; lia.
      + destruct (nu_syo _ _ _ _ _ Hnu t w Hwr (g w) ltac:(lia)) as (t' & Ht' & Hwr').
        pose proof (IH t' Ht' _ Hwr') as X. apply Gi in X; lia.
    - destruct (Mw t (g w) HwM w ltac:(lia)) as (t' & Ht' & y' & d' & q' & Ey & Gy).
      destruct (le_lt_dec t (S t')) as [Hle|Hgt].
      + assert (t = S t') as -> by lia. destruct (Hdown _ t' x E ltac:(lia)) as (y & Ey1).
        pose proof E as E2. rewrite steps_S, Ey1 in E2. unfold step in E2. destruct (T (st y) (tp y (hd y))) as [w2 d2 q2|] eqn:G2; [|discriminate].
        assert (Hwy : writes T t' w2) by (exists y, d2, q2; auto). destruct (Hrun t' y Ey1) as (y2 & Ey2 & Ry).
        assert (y2 = y') as -> by congruence. pose proof (Hsub _ _ _ _ _ G2) as GM2. unfold read in Gy. rewrite (renames_read _ _ _ _ _ Ry) in Gy.
        destruct Ry as (Rs & _). rewrite Rs, GM2 in Gy. injection Gy as Ew _ _.
        rewrite (IH t' ltac:(lia) _ Hwy) in Ew. subst w2. rewrite (IH t' ltac:(lia) _ Hwy) in Hg. lia.
      + destruct (Hdown _ t' x E ltac:(lia)) as (y & Ey1). destruct (Hdown _ (S t') x E Hgt) as (y3 & E2).
        rewrite steps_S, Ey1 in E2. unfold step in E2. destruct (T (st y) (tp y (hd y))) as [w2 d2 q2|] eqn:G2; [|discriminate].
        assert (Hwy : writes T t' w2) by (exists y, d2, q2; auto). destruct (Hrun t' y Ey1) as (y2 & Ey2 & Ry).
        assert (y2 = y') as -> by congruence. pose proof (Hsub _ _ _ _ _ G2) as GM2. unfold read in Gy. rewrite (renames_read _ _ _ _ _ Ry) in Gy.
        destruct Ry as (Rs & _). rewrite Rs, GM2 in Gy. injection Gy as Ew _ _.
        rewrite (IH t' ltac:(lia) _ Hwy) in Ew. subst w2. rewrite (IH t' ltac:(lia) _ Hwy) in Hg. lia. }
  intros i j w d q E. destruct (nu_used _ _ _ _ _ Hnu _ _ _ _ _ E) as (t & x & Ex & Hi & Hj).
  pose proof (Hsub _ _ _ _ _ E) as EM. assert (Ex1 : steps T (S t) initial = Some (Cfg q (hd x + dz d)%Z (put (tp x) (hd x) w))).
  { rewrite steps_S; unfold T; rewrite Ex. unfold step. unfold read in Hj. unfold T in E; now rewrite Hi, Hj, E. }
  assert (Eq : f q = q) by (apply HF in Ex1; exact Ex1).
  assert (Ei : f i = i) by (rewrite <- Hi; eauto).
  assert (Ew : g w = w). { apply (HG t). exists x, d, q. split; auto. now rewrite Hi, Hj. }
  assert (Ej : g j = j).
  { rewrite <- Hj. unfold read. destruct (tape_written T t x Ex (hd x)) as [-> |(t' & _ & Hwr)]; eauto. }
  rewrite Ei, Ej, Ew, Eq in EM. assert (b = false) as ->; [|exact EM].
  assert (Ey : exists y, steps T 1 initial = Some y).
  { destruct t; [eauto|]. apply (Hdown _ 1 _ Ex1). lia. }
  destruct Ey as (y & Ey). simpl in Ey. unfold step in Ey. simpl in Ey. destruct (T 0 0) as [w0 d0 q0|] eqn:E0; [|discriminate].
  pose proof (nu_first _ _ _ _ _ Hnu _ _ _ E0) as ->. pose proof (Hsub _ _ _ _ _ E0) as EM0. rewrite F0, G0 in EM0. apply Md in EM0.
  destruct b; auto. discriminate.
Qed.

Theorem in_tree n m allow M k c' : 0 < n -> 0 < m -> in_range n m M ->
  in_first_order M st -> writes_in_order M -> (forall w d q, M 0 0 = Go w d q -> d = R) ->
  (allow = true \/ exists i j w d e, i < n /\ j < m /\ M i j = Stop w d e) ->
  steps M k initial = Some c' ->
  exists tab, node n m allow false tab /\ extends (table_of tab) M /\ steps (table_of tab) k initial = Some c'.
Proof.
  intros Hn Hm HM Mo Mw Md Ha Ek. destruct (root_free n m M Hn Hm) as (root & Er & Hi).
  destruct (complete_gen n m M allow false HM root k c') as (tab & f & g & b & H & (Fi & _) & (Gi & _) & F0 & G0 & Hsub & Hr & _); eauto 10.
  exists tab. split; auto. destruct (node_numbered _ _ _ _ _ Hn Hm H) as (a & c & Hnu).
  pose proof (same_names _ _ _ _ _ _ _ _ _ Hnu Hsub F0 G0 Fi Gi Mo Mw Md) as He. split; auto.
  destruct (Hr k c' (le_n k) Ek) as (c1 & Ec1 & _). pose proof (extends_steps _ _ He _ _ _ Ec1). congruence.
Qed.
