(** * The enumeration with the simulation: what the records of the output file say *)
Require Import ZArith List Lia Bool Arith Permutation.
From Verif Require Import Spec_TM Spec_Rename M_Turing_Machine M_Direct M_Tape M_Simulator M_Settings M_Filters M_IO M_Enum M_Pipeline M_Enumerate
  P_Macro P_Quint P_IO P_Tree P_Complete P_Complete2 P_Unique P_TNF2 P_Queue P_EnumTree Prop_LinRecur Prop_IO Prop_Enum Prop_Count Prop_Pipeline.
Import ListNotations.
Open Scope nat_scope.

(** ** tables of the tree *)
Lemma std_wf n m tab : 0 < n -> 0 < m -> std_table n m tab -> wf_ttable n m tab.
Proof.
  intros Hn Hm ((Hl & Hr) & Hc). do 4 (split; [assumption|]). intros i j row t E1 E2.
  assert (C : cell tab i j = Some t) by (unfold cell; unfold ttable, trans_row in *; now rewrite E1).
  specialize (Hc _ _ _ C). unfold cell_ok. destruct Hc; cbn; eauto 10.
Qed.
Lemma tinv_std n m a c tab : tinv n m a c tab -> std_table n m tab.
Proof.
  intros H. split; [apply H|]. intros i j t E. destruct (ti_cell _ _ _ _ _ H _ _ _ E) as [->|(w & d & q & -> & L1 & L2 & L3 & L4)].
  - constructor.
  - destruct (ti_pos _ _ _ _ _ H). constructor; lia.
Qed.
Lemma node_tinv n m allow first tab : 0 < n -> 0 < m -> node n m allow first tab -> exists a c, tinv n m a c tab.
Proof. intros Hn Hm H. destruct (node_numbered _ _ _ _ _ Hn Hm H) as (a & c & Hu). exists a, c. apply Hu. Qed.

Lemma trans_dec (t u : transition nat sstate) : {t = u} + {t <> u}.
Proof. repeat decide equality. Qed.
Lemma std_cell_dec n m i j t : {std_cell n m i j t} + {~ std_cell n m i j t}.
Proof.
  destruct (trans_dec t (undefined_trans j i)) as [->|N1]; [left; constructor|].
  destruct (trans_dec t (Trans HALT [DCell j i] (t_sym t) SHalt (t_dir t) 1 [(i, 0)])) as [E2|N2].
  - destruct (lt_dec (t_sym t) m); [left; rewrite E2; now constructor|].
    right. intros H. inversion H; subst; cbn in *; congruence.
  - destruct (t_state t) as [q|] eqn:Eq.
    2:{ right. intros H. inversion H; subst; cbn in *; congruence. }
    destruct (trans_dec t (Trans RUNNING [] (t_sym t) (SRun q) (t_dir t) 1 [(i, 0)])) as [E3|N3].
    + destruct (lt_dec (t_sym t) m); [destruct (lt_dec q n); [left; rewrite E3; now constructor|]|];
        right; intros H; inversion H; subst; cbn in *; (congruence || (inversion Eq; subst; congruence)).
    + right. intros H. inversion H; subst; cbn in *; (congruence || (inversion Eq; subst; now apply N3)).
Qed.
Lemma std_table_dec n m tab : {std_table n m tab} + {~ std_table n m tab}.
Proof.
  destruct (Nat.eq_dec (length tab) n) as [L|L]; [|right; intros ((? & _) & _); auto].
  destruct (Forall_dec (fun row => length row = m) (fun row => Nat.eq_dec (length row) m) tab) as [F|F].
  2:{ right. intros ((_ & H) & _). apply F, Forall_forall. exact H. }
  assert (Hr : rect n m tab) by (split; [exact L|apply Forall_forall; exact F]).
  destruct (Forall_dec (fun a : nat * nat => forall t, cell tab (fst a) (snd a) = Some t -> std_cell n m (fst a) (snd a) t)) with (l := grid n m) as [G|G].
  - intros (i, j). cbn [fst snd]. destruct (cell tab i j) as [t|]; [|left; discriminate].
    destruct (std_cell_dec n m i j t) as [H|H]; [left; intros u E; injection E as <-; exact H|right; intros H'; auto].
  - left. split; [exact Hr|]. intros i j t E. rewrite Forall_forall in G. apply (G (i, j)); [|exact E].
    destruct (cell_bounds _ _ _ _ _ _ Hr E). now apply In_grid2.
  - right. intros (_ & H). apply G, Forall_forall. intros (i, j) _ t. apply H.
Qed.

(** ** the queue does not depend on the fuel *)
Section Fuel.
  Context {J Rec : Type} (expand : J -> list J) (written unrun : J -> Rec) (shuffle : nat -> list J -> list J).
  Lemma loop_mono d limit fuel : forall k queue out r fuel', fuel <= fuel' ->
    enum_loop J Rec expand written shuffle d limit fuel k queue out = Some r ->
    enum_loop J Rec expand written shuffle d limit fuel' k queue out = Some r.
  Proof.
    induction fuel as [|fuel IH]; intros k queue out r fuel' F E.
    - destruct fuel'; cbn [enum_loop] in *; destruct (match limit with Some x => x <=? k | None => false end); auto;
        destruct (pop_job J d queue) as [[j q]|]; auto; discriminate.
    - destruct fuel' as [|fuel']; [lia|]. cbn [enum_loop] in *. destruct (match limit with Some x => x <=? k | None => false end); auto.
      destruct (pop_job J d queue) as [[j q]|]; auto. apply IH; auto. lia.
  Qed.
  Lemma main_mono d num fuel : forall inputs k queue out r fuel', fuel <= fuel' ->
    enum_main J Rec expand written unrun shuffle d num fuel k inputs queue out = Some r ->
    enum_main J Rec expand written unrun shuffle d num fuel' k inputs queue out = Some r.
  Proof.
    induction inputs as [|j inputs IH]; intros k queue out r fuel' F E; cbn [enum_main] in *; auto.
    unfold continue_enum in *.
    destruct (enum_loop J Rec expand written shuffle d _ fuel k (queue ++ [j]) out) as [((k1, q1), o1)|] eqn:E1; [|discriminate].
    rewrite (loop_mono _ _ _ _ _ _ _ _ F E1).
    destruct (if num =? 0 then None else Some num); [destruct (drain _ _ _ _ _ _ _ _)|]; eauto.
  Qed.
End Fuel.

Lemma forest_ext {J} (e e' : J -> list J) js nodes : forest e js nodes -> (forall x, In x nodes -> e x = e' x) -> forest e' js nodes.
Proof.
  induction 1 as [|j js a b F1 IH1 F2 IH2]; intros H; [constructor|]. constructor.
  - rewrite <- H by (simpl; auto). apply IH1. intros x Hx. apply H. right. apply in_app_iff. auto.
  - apply IH2. intros x Hx. apply H. right. apply in_app_iff. auto.
Qed.

(** ** halting explicitly *)
Lemma cell_set_halt n m tab i j : rect n m tab -> i < n -> j < m -> forall x y,
  cell (set_halt_trans tab i j) x y = if (Nat.eqb i x && Nat.eqb j y)%bool then Some (halt_trans i j) else cell tab x y.
Proof.
  intros Hr Hi Hj x y. unfold set_halt_trans. rewrite cell_set. destruct (Nat.eqb_spec i x), (Nat.eqb_spec j y); simpl; auto. subst x y.
  destruct (rect_cell n m tab i j Hr Hi Hj) as (t & ->). reflexivity.
Qed.
Lemma table_set_halt n m tab i j : rect n m tab -> i < n -> j < m -> forall x y,
  table_of (set_halt_trans tab i j) x y = if (Nat.eqb i x && Nat.eqb j y)%bool then Stop 1 R true else table_of tab x y.
Proof. intros Hr Hi Hj x y. rewrite !table_of_cell, (cell_set_halt n m) by auto. now destruct (_ && _)%bool. Qed.
Lemma std_set_halt n m tab i j : std_table n m tab -> i < n -> j < m -> 1 < m -> std_table n m (set_halt_trans tab i j).
Proof.
  intros (Hr & Hc) Hi Hj H1. split; [now apply rect_set|]. intros x y t. rewrite (cell_set_halt n m) by auto.
  destruct (Nat.eqb_spec i x) as [->|]; [destruct (Nat.eqb_spec j y) as [->|]|]; cbn [andb]; eauto.
  intros E. injection E as <-. now constructor.
Qed.

Lemma tinv_stop n m a c tab x y w d e : tinv n m a c tab -> table_of tab x y = Stop w d e -> w = 1 /\ d = R /\ e = false.
Proof.
  intros H E. rewrite table_of_cell in E. destruct (cell tab x y) as [t|] eqn:C; [|now injection E].
  destruct (ti_cell _ _ _ _ _ H _ _ _ C) as [->|(w1 & d1 & q & -> & _)]; cbn in E; [now injection E|discriminate].
Qed.

(** a node that stops and the machine that halts there *)
Lemma halt_version n m a c tab k q s e t : tinv n m a c tab -> halts_at (table_of tab) initial k q s e t ->
  q < n /\ s < m /\ halts_at (table_of (set_halt_trans tab q s)) initial k q s true t /\ extends (table_of tab) (table_of (set_halt_trans tab q s)).
Proof.
  intros H (k' & x & w & d & -> & Ek & -> & -> & Es & Ht). destruct (tinv_bounds _ _ _ _ _ _ _ H Ek) as (B1 & B2).
  specialize (B2 (hd x)). destruct (ti_pos _ _ _ _ _ H) as (P1 & P2). pose proof (ti_rect _ _ _ _ _ H) as Hr.
  destruct (tinv_stop _ _ _ _ _ _ _ _ _ _ H Es) as (-> & -> & ->).
  assert (X : extends (table_of tab) (table_of (set_halt_trans tab (st x) (tp x (hd x))))).
  { intros i j w d q E. rewrite (table_set_halt n m) by (auto; lia).
    destruct (Nat.eqb_spec (st x) i) as [<-|]; [destruct (Nat.eqb_spec (tp x (hd x)) j) as [<-|]|]; cbn [andb]; auto. congruence. }
  split; [lia|]. split; [lia|]. split; [|exact X].
  exists k', x, 1, R. split; [reflexivity|]. split; [exact (extends_steps _ _ X _ _ _ Ek)|].
  do 2 (split; [reflexivity|]). split; [|exact Ht]. rewrite (table_set_halt n m) by (auto; lia). now rewrite !Nat.eqb_refl.
Qed.

Lemma steps_halts_not T k q s e t : halts_at T initial k q s e t -> ~ nonhalting T initial.
Proof.
  intros (k' & x & w & d & -> & Ek & -> & -> & Es & _) N. apply (N (S k')). rewrite steps_S, Ek. unfold step. now rewrite Es.
Qed.

(** what a record says is true of the machine stored in it *)
Definition record_true (n m : nat) (r : option (proto_tm * status)) : Prop :=
  exists p s tab, r = Some (p, s) /\ read_tm p = Some (tab, n, m) /\ std_table n m tab /\
  match s with
  | Unknown => True
  | Halting k sc q a => (0 <= k)%Z /\ (0 <= sc)%Z /\
      exists tape, halts_at (table_of tab) initial (Z.to_nat k) q a true tape /\ score tape (Z.to_nat sc)
  | Infinite source b => nonhalting (table_of tab) initial /\ (source <> FromSim INF_MACRO_STEP -> quasi_true (table_of tab) b)
  end.

(** the score of a machine and of the table it is an instance of *)
Lemma score_le f g b x x' w t t' sc sc' : g 0 = 0 -> renames f g b x x' ->
  (forall z, t z = put (tp x) (hd x) 1 z) -> (forall z, t' z = put (tp x') (hd x') w z) ->
  score t sc -> score t' sc' -> sc' <= sc.
Proof.
  intros G0 (R1 & R2 & R3) Ht Ht' (l & N1 & I1 & <-) (l' & N2 & I2 & <-).
  rewrite <- (map_length (mirror_pos b) l). apply NoDup_incl_length; [exact N2|]. intros z Hz. apply I2 in Hz. rewrite Ht' in Hz.
  apply in_map_iff. exists (mirror_pos b z). split; [apply mirror_invol|]. apply I1. rewrite Ht.
  unfold put in *. destruct (Z.eqb_spec (mirror_pos b z) (hd x)) as [|N]; [discriminate|].
  destruct (Z.eqb_spec z (hd x')) as [E|N']; [exfalso; apply N; rewrite E, R2; apply mirror_invol|].
  intros Z1. apply Hz. rewrite <- (mirror_invol b z), R3, Z1. exact G0.
Qed.
Lemma score_ge f g b x x' w t t' sc sc' : (forall z, g (tp x z) = 0 -> tp x z = 0) -> renames f g b x x' -> w <> 0 ->
  (forall z, t z = put (tp x) (hd x) 1 z) -> (forall z, t' z = put (tp x') (hd x') w z) ->
  score t sc -> score t' sc' -> sc <= sc'.
Proof.
  intros G0 (R1 & R2 & R3) Hw Ht Ht' (l & N1 & I1 & <-) (l' & N2 & I2 & <-).
  rewrite <- (map_length (mirror_pos b) l'). apply NoDup_incl_length; [exact N1|]. intros z Hz. apply I1 in Hz. rewrite Ht in Hz.
  apply in_map_iff. exists (mirror_pos b z). split; [apply mirror_invol|]. apply I2. rewrite Ht'.
  unfold put in *. destruct (Z.eqb_spec (mirror_pos b z) (hd x')) as [|N]; [exact Hw|].
  destruct (Z.eqb_spec z (hd x)) as [E|N']; [exfalso; apply N; rewrite E, R2; reflexivity|].
  rewrite R3. intros Q. apply Hz. now apply G0.
Qed.

(** the status of the pipeline is true *)
Lemma run_status_true faster order next n m o fuel late : 0 < n -> 0 < m -> (forall A l, incl (order A l) l) ->
  (forall tab, std_table n m tab -> prover_trusted (next tab) tab o) -> blocks_covered n m (enum_options o) ->
  forall tab, std_table n m tab -> status_true True (table_of tab) (run_status faster order next n m o fuel late tab).
Proof.
  intros Hn Hm Ho PT BC tab H. unfold run_status. destruct (late tab); [exact I|].
  destruct (run_options _ _ _ _ _ _ _ _) as [s|] eqn:E; [|exact I].
  assert (W : wf_ttable n m tab) by (apply std_wf; auto; lia).
  assert (PT' : prover_trusted (next tab) tab (enum_options o)) by exact (PT tab H).
  pose proof (C55_status_true_partial _ _ _ _ _ _ _ _ _ W Ho PT' E) as S0.
  destruct s as [|k sc q a|source b]; cbn [status_true] in *; auto. destruct S0 as (S1 & S2). split; auto.
Qed.

Section Run.
  Variables (n m : nat) (allow : bool).
  Variable run : ttable -> status.
  Hypothesis Hn : 0 < n <= 7.
  Hypothesis Hm : 1 < m <= 7.
  Hypothesis status_ok : forall tab, std_table n m tab -> status_true True (table_of tab) (run tab).
  Notation cell_of := (halt_cell run).
  Notation expand := (expand_job n m allow run).
  Notation rec := (record_of n m run).

  Lemma cell_sound tab i j : std_table n m tab -> cell_of tab = Some (i, j) ->
    exists k sc e t, run tab = Halting k sc i j /\ (0 <= k)%Z /\ (0 <= sc)%Z /\ halts_at (table_of tab) initial (Z.to_nat k) i j e t /\ score t (Z.to_nat sc).
  Proof.
    intros H E. pose proof (status_ok tab H) as S0. unfold halt_cell in E. destruct (run tab) as [|k sc q a|source b]; try discriminate.
    injection E as -> ->. destruct S0 as (S1 & S2 & e & t & S3 & S4). eauto 10.
  Qed.

  Definition safe_cell (tab : ttable) : option (nat * nat) := if std_table_dec n m tab then cell_of tab else None.
  Lemma safe_sound tab i j : safe_cell tab = Some (i, j) -> exists k b t, halts_at (table_of tab) initial k i j b t.
  Proof.
    unfold safe_cell. destruct (std_table_dec n m tab) as [H|]; [|discriminate]. intros E.
    destruct (cell_sound tab i j H E) as (k & sc & e & t & _ & _ & _ & Hh & _). eauto.
  Qed.

  Lemma node_std first tab : node n m allow first tab -> std_table n m tab.
  Proof. intros H. destruct (node_tinv n m allow first tab ltac:(lia) ltac:(lia) H) as (a & c & Hi). eapply tinv_std; eauto. Qed.

  Lemma the_tree first root : blank_tm_enum n m first = Some root ->
    exists nodes, forest expand [root] nodes /\ NoDup nodes /\ forall tab, In tab nodes -> node n m allow first tab.
  Proof.
    intros E. destruct (C44_ends n m allow first safe_cell root ltac:(lia) ltac:(lia) E safe_sound) as (nodes & F).
    destruct (enum_tree n m allow safe_cell safe_sound first root nodes ltac:(lia) ltac:(lia) E F) as (N1 & N2 & _).
    exists nodes. split; [|auto]. apply (forest_ext _ _ _ _ F). intros x Hx. unfold expand_tm, expand_job, safe_cell.
    destruct (std_table_dec n m x) as [|N]; [reflexivity|]. destruct N. exact (node_std first x (N2 x Hx)).
  Qed.

  (** a table of the tree is listed, or one on the way to it was left undecided *)
  Lemma reached first root nodes tab : blank_tm_enum n m first = Some root -> forest expand [root] nodes ->
    node n m allow first tab ->
    In tab nodes \/ exists x k i j b t, In x nodes /\ cell_of x = None /\ node n m allow first x /\
                      halts_at (table_of x) initial k i j b t /\ desc n m allow x tab.
  Proof.
    intros E F. induction 1 as [tab E'|tab k i j b t l tab' Hnode IH Hh El Hin].
    - left. assert (tab = root) as -> by congruence. eapply forest_In_self; eauto. simpl. auto.
    - assert (Hc : child n m allow tab tab') by (exists k, i, j, b, t, l; auto).
      assert (D : desc n m allow tab tab') by (eapply desc_step; [exact Hc|constructor]).
      destruct IH as [IH|(x & k1 & i1 & j1 & b1 & t1 & X1 & X2 & X3 & X4 & X5)].
      + destruct (cell_of tab) as [(i', j')|] eqn:Ec.
        * left. apply (forest_closed _ _ _ tab tab' F IH). unfold expand_job. rewrite Ec.
          destruct (cell_sound tab i' j' (node_std first tab Hnode) Ec) as (k' & sc & e & t' & _ & _ & _ & Hh' & _).
          destruct (halts_at_fun _ _ _ _ _ _ _ _ _ _ _ _ Hh Hh') as (_ & <- & <- & _). now rewrite El.
        * right. exists tab, k, i, j, b, t. auto.
      + right. exists x, k1, i1, j1, b1, t1. repeat (split; [assumption|]). eapply desc_trans; eauto.
  Qed.

  Lemma pack_std tab : std_table n m tab -> exists bytes, pack_tm tab n m = Some bytes /\ unpack_tm bytes = Some (tab, n, m).
  Proof. intros H. destruct (C37_packed_round_trip n m tab H ltac:(lia) ltac:(lia)) as (b & E1 & _ & _ & E2). eauto. Qed.
  Lemma write_std tab : std_table n m tab -> exists bytes, write_tm tab n m = Some (Packed bytes) /\ unpack_tm bytes = Some (tab, n, m).
  Proof.
    intros H. destruct (pack_std tab H) as (b & E1 & E2). exists b. unfold write_tm.
    rewrite (proj2 (Nat.leb_le n 7)), (proj2 (Nat.leb_le m 8)) by lia. cbn [andb]. now rewrite E1.
  Qed.

  (** the table stored for a node *)
  Definition stored (tab : ttable) : ttable := match cell_of tab with Some (q, a) => set_halt_trans tab q a | None => tab end.
  Lemma rec_shape first tab : node n m allow first tab ->
    exists bytes, rec tab = Some (Packed bytes, run tab) /\ read_tm (Packed bytes) = Some (stored tab, n, m) /\ std_table n m (stored tab).
  Proof.
    intros Hnode. pose proof (node_std first tab Hnode) as Hstd. unfold record_of, stored, halt_cell.
    pose proof (status_ok tab Hstd) as S0.
    destruct (run tab) as [|k sc q a|source b]; [|shelve|]; destruct (write_std tab Hstd) as (b0 & -> & E); exists b0;
      (split; [reflexivity|split; [exact E|exact Hstd]]).
    Unshelve. destruct S0 as (_ & _ & e & t & Hh & _). destruct (node_tinv n m allow first tab ltac:(lia) ltac:(lia) Hnode) as (x & c & Hi).
    destruct (halt_version n m x c tab _ _ _ _ _ Hi Hh) as (B1 & B2 & _).
    assert (S1 : std_table n m (set_halt_trans tab q a)) by (apply std_set_halt; auto; lia).
    destruct (pack_std _ S1) as (b0 & -> & E). exists b0. split; [reflexivity|split; [exact E|exact S1]].
  Qed.
  Lemma rec_true first tab : node n m allow first tab -> record_true n m (rec tab).
  Proof.
    intros Hnode. destruct (rec_shape first tab Hnode) as (b & -> & E & S1). exists (Packed b), (run tab), (stored tab).
    do 3 (split; [assumption || reflexivity|]). pose proof (status_ok tab (node_std first tab Hnode)) as S0.
    unfold stored, halt_cell. destruct (run tab) as [|k sc q a|source b0]; auto.
    - destruct S0 as (S2 & S3 & e & t & Hh & Hs). destruct (node_tinv n m allow first tab ltac:(lia) ltac:(lia) Hnode) as (x & c & Hi).
      destruct (halt_version n m x c tab _ _ _ _ _ Hi Hh) as (_ & _ & Hh' & _). eauto.
    - destruct S0 as (S2 & S3). auto.
  Qed.

  (** the tables stored for different nodes are different *)
  Lemma stored_inj first x y : node n m allow first x -> node n m allow first y -> stored x = stored y -> x = y.
  Proof.
    intros Hx Hy E. destruct (node_tinv n m allow first x ltac:(lia) ltac:(lia) Hx) as (a1 & c1 & Ix).
    destruct (node_tinv n m allow first y ltac:(lia) ltac:(lia) Hy) as (a2 & c2 & Iy).
    assert (P : forall z a c, tinv n m a c z -> node n m allow first z ->
       match cell_of z with Some (q, s) => q < n /\ s < m /\ cell z q s = Some (undefined_trans s q) | None => True end).
    { intros z a c Iz Hz. destruct (cell_of z) as [(q, s)|] eqn:Ec; [|exact I].
      destruct (cell_sound z q s (node_std first z Hz) Ec) as (k & sc & e & t & _ & _ & _ & Hh & _).
      destruct (halt_version n m a c z _ _ _ _ _ Iz Hh) as (B1 & B2 & _). split; [auto|]. split; [auto|].
      destruct (rect_cell n m z q s (ti_rect _ _ _ _ _ Iz) B1 B2) as (u & Eu). rewrite Eu.
      destruct (ti_cell _ _ _ _ _ Iz _ _ _ Eu) as [->|(w & d & q' & -> & _)]; [reflexivity|].
      destruct Hh as (k' & cc & w' & d' & _ & _ & -> & -> & Es & _). rewrite table_of_cell, Eu in Es. discriminate. }
    pose proof (P x _ _ Ix Hx) as Px. pose proof (P y _ _ Iy Hy) as Py.
    assert (NH : forall z a c i j, tinv n m a c z -> cell z i j <> Some (halt_trans i j)).
    { intros z a c i j Iz Q. destruct (ti_cell _ _ _ _ _ Iz _ _ _ Q) as [X|(w & d & q' & X & _)]; discriminate. }
    unfold stored in E. pose proof (ti_rect _ _ _ _ _ Ix) as Rx. pose proof (ti_rect _ _ _ _ _ Iy) as Ry.
    destruct (cell_of x) as [(q1, s1)|], (cell_of y) as [(q2, s2)|].
    - destruct Px as (L1 & L2 & U1), Py as (L3 & L4 & U2).
      assert (C : forall i j, cell (set_halt_trans x q1 s1) i j = cell (set_halt_trans y q2 s2) i j) by (intros; now rewrite E).
      assert (q1 = q2 /\ s1 = s2) as (-> & ->).
      { pose proof (C q1 s1) as X. rewrite !(cell_set_halt n m) in X by auto. rewrite !Nat.eqb_refl in X. cbn [andb] in X.
        destruct (Nat.eqb_spec q2 q1); [destruct (Nat.eqb_spec s2 s1); auto|]; cbn [andb] in X; exfalso; exact (NH y _ _ _ _ Iy (eq_sym X)). }
      apply (rect_ext n m); auto. intros i j Hi Hj. specialize (C i j). rewrite !(cell_set_halt n m) in C by auto.
      destruct (Nat.eqb_spec q2 i) as [E1|]; [destruct (Nat.eqb_spec s2 j) as [E2|]|]; cbn [andb] in C; auto. rewrite <- E1, <- E2. congruence.
    - exfalso. destruct Px as (L1 & L2 & U1). apply (NH y _ _ q1 s1 Iy). rewrite <- E, (cell_set_halt n m) by auto. now rewrite !Nat.eqb_refl.
    - exfalso. destruct Py as (L1 & L2 & U1). apply (NH x _ _ q2 s2 Ix). rewrite E, (cell_set_halt n m) by auto. now rewrite !Nat.eqb_refl.
    - exact E.
  Qed.
  Lemma stored_raw first x y : node n m allow first x -> node n m allow first y -> stored x = y -> x = y.
  Proof.
    intros Hx Hy E. destruct (node_tinv n m allow first x ltac:(lia) ltac:(lia) Hx) as (a1 & c1 & Ix).
    destruct (node_tinv n m allow first y ltac:(lia) ltac:(lia) Hy) as (a2 & c2 & Iy). unfold stored in E.
    destruct (cell_of x) as [(q, s)|] eqn:Ec; [exfalso|exact E].
    destruct (cell_sound x q s (node_std first x Hx) Ec) as (k & sc & e & t & _ & _ & _ & Hh & _).
    destruct (halt_version n m a1 c1 x _ _ _ _ _ Ix Hh) as (B1 & B2 & _).
    assert (C : cell y q s = Some (halt_trans q s)).
    { rewrite <- E, (cell_set_halt n m) by (auto; apply Ix). now rewrite !Nat.eqb_refl. }
    destruct (ti_cell _ _ _ _ _ Iy _ _ _ C) as [X|(w & d & q' & X & _)]; discriminate.
  Qed.

  (** every halting machine is covered *)
  Lemma covered_node first root nodes M k c' w d e : blank_tm_enum n m first = Some root -> forest expand [root] nodes ->
    in_range n m M -> steps M k initial = Some c' -> M (st c') (tp c' (hd c')) = Stop w d e ->
    (exists tab f g b, node n m allow first tab /\ permutes n f /\ permutes m g /\ f 0 = 0 /\ g 0 = 0 /\
      sub_renamed f g b (table_of tab) M /\
      (forall i c1, i <= k -> steps M i initial = Some c1 -> exists c, steps (table_of tab) i initial = Some c /\ renames f g b c c1) /\
      exists q s t, halts_at (table_of tab) initial (S k) q s false t /\ f q = st c' /\ g s = tp c' (hd c')) ->
    exists tab f g b, In tab nodes /\ permutes n f /\ permutes m g /\ f 0 = 0 /\ g 0 = 0 /\ sub_renamed f g b (table_of (stored tab)) M /\
      (run tab = Unknown \/
       exists sc q a, run tab = Halting (Z.of_nat (S k)) (Z.of_nat sc) q a /\ f q = st c' /\ g a = tp c' (hd c') /\
         forall t' sc', (forall z, t' z = put (tp c') (hd c') w z) -> score t' sc' -> sc' <= sc /\ (w <> 0 -> sc' = sc)).
  Proof.
    intros E F HM Ek Es (tab & f & g & b & Hnode & Pf & Pg & F0 & G0 & Sub & Fol & q & s & t & Hh & Fq & Gs).
    destruct (reached first root nodes tab E F Hnode) as [Hin|(x & k1 & i1 & j1 & b1 & t1 & X1 & X2 & X3 & X4 & X5)].
    - exists tab, f, g, b. do 5 (split; [assumption|]).
      pose proof (status_ok tab (node_std first tab Hnode)) as S0. pose proof (steps_halts_not _ _ _ _ _ _ Hh) as NN.
      destruct (node_tinv n m allow first tab ltac:(lia) ltac:(lia) Hnode) as (a0 & c0 & Hi).
      unfold stored, halt_cell. destruct (run tab) as [|k2 sc q2 a2|source b2]; [auto| |destruct NN; apply S0; auto].
      destruct S0 as (S1 & S2 & e2 & t2 & Hh2 & Hs2). destruct (halts_at_fun _ _ _ _ _ _ _ _ _ _ _ _ Hh Hh2) as (K & <- & <- & _ & _).
      destruct (halt_version n m a0 c0 tab _ _ _ _ _ Hi Hh) as (B1 & B2 & _).
      split.
      + intros i j w1 d1 q1 Eg. rewrite (table_set_halt n m) in Eg by (auto; apply Hi).
        destruct (_ && _)%bool; [discriminate|]. now apply Sub.
      + right. exists (Z.to_nat sc), q, s. rewrite Z2Nat.id by exact S2. rewrite K, Z2Nat.id by exact S1. do 3 (split; [assumption || reflexivity|]).
        intros t' sc' Ht' Hs'. destruct Hh2 as (k3 & x & w3 & d3 & K3 & Ek3 & _ & _ & Es3 & Ht3).
        destruct (tinv_stop _ _ _ _ _ _ _ _ _ _ Hi Es3) as (-> & _).
        assert (k3 = k) as -> by lia. destruct (Fol k c' (le_n _) Ek) as (x' & Ex & Rx). assert (x' = x) as -> by congruence.
        destruct (tinv_bounds _ _ _ _ _ _ _ Hi Ek3) as (_ & B4). destruct (ti_pos _ _ _ _ _ Hi) as (_ & P2).
        pose proof (score_le f g b x c' w t2 t' _ _ G0 Rx Ht3 Ht' Hs2 Hs') as L1. split; [exact L1|]. intros Hw.
        enough (Z.to_nat sc <= sc') by lia. apply (score_ge f g b x c' w t2 t'); auto.
        intros z Z1. apply (proj1 Pg); [specialize (B4 z); lia|lia|congruence].
    - exists x, f, g, b. do 5 (split; [assumption|]).
      destruct (node_tinv n m allow first x ltac:(lia) ltac:(lia) X3) as (a0 & c0 & Hi). split.
      + unfold stored. rewrite X2. intros i j w1 d1 q1 Eg. apply Sub. exact (desc_extends _ _ _ _ _ X5 _ _ Hi _ _ _ _ _ Eg).
      + left. pose proof (status_ok x (node_std first x X3)) as S0. unfold halt_cell in X2.
        destruct (run x) as [|k2 sc q2 a2|source b2]; [reflexivity|discriminate|]. exfalso. apply (steps_halts_not _ _ _ _ _ _ X4), S0. auto.
  Qed.
End Run.
