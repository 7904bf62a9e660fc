(** * The closed position set: a closed graph contains every later configuration *)
Require Import ZArith List Lia Bool Arith.
From Verif Require Import Spec_TM M_Turing_Machine P_Stream P_SimLimited P_Macro M_CPS.
Import ListNotations.

Lemma pyslice_ok {A} (w : list A) i j : (i <= j)%nat -> pyslice w (Z.of_nat i) (Z.of_nat j) = firstn (j - i) (skipn i w).
Proof.
  intros H. unfold pyslice, slice_ix.
  rewrite !(proj2 (Z.ltb_ge _ _)) by lia. now rewrite !Nat2Z.id.
Qed.

(** ** blocks of a stream *)
Definition orient {A} (d : dir) (b : list A) : list A := match d with L => rev b | R => b end.
Definition sdrop {A} (k : nat) (f : nat -> A) : nat -> A := fun i => f (k + i)%nat.
Lemma orient_length {A} d (b : list A) : length (orient d b) = length b.
Proof. destruct d; cbn; [apply rev_length|reflexivity]. Qed.
Lemma orient_orient {A} d (b : list A) : orient d (orient d b) = b.
Proof. destruct d; cbn; [apply rev_involutive|reflexivity]. Qed.

Lemma list_eqb_iff {A} (eqb : A -> A -> bool) : (forall a b, eqb a b = true <-> a = b) ->
  forall x y, list_eqb eqb x y = true <-> x = y.
Proof.
  intros H. induction x as [|a x IH]; intros [|b y]; cbn; try (split; [discriminate|discriminate]); [tauto|].
  rewrite andb_true_iff, H, IH. split; [intros [-> ->]; reflexivity|]. intros E. split; congruence.
Qed.

Section Blocks.
  Context {Sym : Type}.
  Variable bs : nat.
  Hypothesis bs_pos : (0 < bs)%nat.
  Notation block := (list Sym).

  (** the [n]-th block of a half tape, written in the order of the tape *)
  Definition bk (d : dir) (f : nat -> Sym) (n : nat) : block := orient d (map (fun j => f (n * bs + j)%nat) (seq 0 bs)).
  Lemma bk_length d f n : length (bk d f n) = bs.
  Proof. unfold bk. now rewrite orient_length, map_length, seq_length. Qed.
  Lemma bk_drop d f n : bk d (sdrop bs f) n = bk d f (S n).
  Proof.
    unfold bk, sdrop. f_equal. apply map_ext. intros j. f_equal. lia.
  Qed.
  Lemma bk_split d f : seqv f (sapp (orient d (bk d f 0)) (sdrop bs f)).
  Proof.
    unfold bk. rewrite orient_orient. intros i. unfold sapp.
    destruct (Nat.lt_ge_cases i bs) as [H|H].
    - rewrite (map_nth_error _ i (seq 0 bs) (d := i)); [f_equal; lia|].
      rewrite (nth_error_nth' _ 0%nat) by (rewrite seq_length; exact H). now rewrite seq_nth.
    - rewrite (proj2 (nth_error_None _ _)) by (rewrite map_length, seq_length; exact H).
      rewrite map_length, seq_length. unfold sdrop. f_equal. lia.
  Qed.
  Lemma map_nth_seq (b : block) x : map (fun j => nth j b x) (seq 0 (length b)) = b.
  Proof.
    induction b as [|a b IH]; [reflexivity|]. cbn [length seq map nth]. f_equal.
    rewrite <- seq_shift, map_map. exact IH.
  Qed.
  Lemma bk_app0 d b f : length b = bs -> bk d (sapp (orient d b) f) 0 = b.
  Proof.
    intros H. rewrite <- (orient_orient d b) at 2. unfold bk. f_equal.
    assert (Hl : length (orient d b) = bs) by now rewrite orient_length. generalize dependent (orient d b). intros l Hl.
    destruct l as [|x l']; [cbn in Hl; lia|]. transitivity (map (fun j => nth j (x :: l') x) (seq 0 bs)); [|rewrite <- Hl; apply map_nth_seq].
    apply map_ext_in. intros j Hj. apply in_seq in Hj. unfold sapp. cbn [Nat.mul Nat.add].
    rewrite (nth_error_nth' _ x); [reflexivity|]. lia.
  Qed.
  Lemma sdrop_app d (b : block) f : length b = bs -> forall i, sdrop bs (sapp (orient d b) f) i = f i.
  Proof.
    intros H i. unfold sdrop, sapp.
    rewrite (proj2 (nth_error_None _ _)) by (rewrite orient_length; lia). f_equal. rewrite orient_length. lia.
  Qed.
  Lemma bk_ext d f g n : seqv f g -> bk d f n = bk d g n.
  Proof. intros H. unfold bk. f_equal. apply map_ext. intros j. apply H. Qed.
  Lemma bk_appS d b f n : length b = bs -> bk d (sapp (orient d b) f) (S n) = bk d f n.
  Proof. intros H. rewrite <- bk_drop. apply bk_ext. intros i. now apply sdrop_app. Qed.

  (** the half tape [f] behind block [e] follows the edges *)
  Definition lang (E : list (block * block)) (d : dir) (e : block) (f : nat -> Sym) : Prop :=
    In (e, bk d f 0) E /\ forall n, In (bk d f n, bk d f (S n)) E.
  Lemma lang_ext E d e f g : seqv f g -> lang E d e f -> lang E d e g.
  Proof.
    intros H [A B]. split; [now rewrite <- (bk_ext d f g)|]. intros n.
    rewrite <- (bk_ext d f g n H), <- (bk_ext d f g (S n) H). apply B.
  Qed.
  Lemma lang_drop E d e f : lang E d e f -> lang E d (bk d f 0) (sdrop bs f).
  Proof. intros [A B]. split; [rewrite bk_drop; apply B|]. intros n. rewrite !bk_drop. apply B. Qed.
  Lemma lang_push E d e b f : length b = bs -> In (e, b) E -> lang E d b f -> lang E d e (sapp (orient d b) f).
  Proof.
    intros H I [A B]. split; [now rewrite bk_app0|]. intros [|n].
    - rewrite bk_app0, bk_appS by exact H. exact A.
    - rewrite !bk_appS by exact H. apply B.
  Qed.

  Lemma getL (w : block) i : get_block bs w L (Z.of_nat i) = firstn bs (skipn (i * bs) w).
  Proof.
    unfold get_block. replace (Z.of_nat i * Z.of_nat bs)%Z with (Z.of_nat (i * bs)) by lia.
    replace ((Z.of_nat i + 1) * Z.of_nat bs)%Z with (Z.of_nat (i * bs + bs)) by lia.
    rewrite pyslice_ok by lia. f_equal. lia.
  Qed.
  Lemma getR (w : block) i : (i * bs + bs <= length w)%nat ->
    get_block bs w R (Z.of_nat i) = firstn bs (skipn (length w - (i * bs + bs)) w).
  Proof.
    intros H. unfold get_block, zlen.
    replace (Z.of_nat (length w) - (Z.of_nat i + 1) * Z.of_nat bs)%Z with (Z.of_nat (length w - (i * bs + bs))) by lia.
    replace (Z.of_nat (length w) - Z.of_nat i * Z.of_nat bs)%Z with (Z.of_nat (length w - i * bs)) by lia.
    rewrite pyslice_ok by lia. f_equal. lia.
  Qed.
  Lemma get_length (w : block) d i : (i * bs + bs <= length w)%nat -> length (get_block bs w d (Z.of_nat i)) = bs.
  Proof.
    intros H. destruct d; [rewrite getL|rewrite getR by exact H]; rewrite firstn_length, skipn_length; lia.
  Qed.
End Blocks.

(** ** the graph operations *)
Section Graph.
  Context {Sym St : Type}.
  Variable M : machine Sym St.
  Hypothesis SE : forall a b, m_sym_eqb M a b = true <-> a = b.
  Hypothesis QE : forall a b, m_st_eqb M a b = true <-> a = b.
  Variable bs ws : nat.
  Hypothesis bs_pos : (0 < bs)%nat.
  Hypothesis ws_ok : (2 * bs <= ws)%nat.
  Notation block := (list Sym).
  Notation cfg := (@cfg Sym St).
  Notation graph := (@graph Sym St).
  Notation entry := (@entry Sym St).
  Variable ord_c : list cfg -> list cfg.
  Variable ord_b : list block -> list block.
  Hypothesis ord_c_ok : forall l x, In x (ord_c l) <-> In x l.
  Hypothesis ord_b_ok : forall l x, In x (ord_b l) <-> In x l.
  (** the symbols and states that occur *)
  Variables (PS : Sym -> Prop) (QS : St -> Prop).

  Lemma block_eqb_iff a b : block_eqb M a b = true <-> a = b.
  Proof. apply list_eqb_iff, SE. Qed.
  Lemma dir_eqb_iff a b : dir_eqb a b = true <-> a = b.
  Proof. destruct a, b; cbn; split; congruence. Qed.
  Lemma cfg_eqb_iff a b : cfg_eqb M a b = true <-> a = b.
  Proof.
    unfold cfg_eqb. rewrite !andb_true_iff, QE, dir_eqb_iff, block_eqb_iff, Z.eqb_eq.
    destruct a, b; cbn. split; [intros [[[-> ->] ->] ->]; reflexivity|]. intros E. repeat split; congruence.
  Qed.
  Lemma edge_eqb_iff a b : edge_eqb M a b = true <-> a = b.
  Proof.
    unfold edge_eqb. rewrite andb_true_iff, !block_eqb_iff. destruct a, b; cbn.
    split; [intros [-> ->]; reflexivity|]. intros E. split; congruence.
  Qed.
  Lemma existsb_iff {A} (eqb : A -> A -> bool) (H : forall a b, eqb a b = true <-> a = b) x l :
    existsb (eqb x) l = true <-> In x l.
  Proof.
    rewrite existsb_exists. split; [intros (y & I & E); apply H in E; now subst|].
    intros I. exists x. split; [exact I|now apply H].
  Qed.

  Lemma successors_in d src g b : In b (successors M ord_b d src g) <-> In (src, b) (g_edges d g).
  Proof.
    unfold successors. rewrite ord_b_ok, in_map_iff. split.
    - intros ([x y] & <- & I). apply filter_In in I as [I E]. apply block_eqb_iff in E. cbn in E. now subst.
    - intros I. exists (src, b). split; [reflexivity|]. apply filter_In. split; [exact I|]. now apply block_eqb_iff.
  Qed.
  Lemma find_entry_in c l v : find_entry M c l = Some v -> In (c, v) l.
  Proof.
    induction l as [|[c' v'] l IH]; cbn; [discriminate|]. destruct (cfg_eqb M c c') eqn:E.
    - apply cfg_eqb_iff in E. subst c'. intros Q. left. congruence.
    - intros Q. right. auto.
  Qed.
  Lemma find_entry_some c v l : In (c, v) l -> exists v', find_entry M c l = Some v'.
  Proof.
    induction l as [|[c' v'] l IH]; cbn; [intros []|]. intros [E|I].
    - assert (c' = c) as -> by congruence. rewrite (proj2 (cfg_eqb_iff c c) eq_refl). eauto.
    - destruct (cfg_eqb M c c'); eauto.
  Qed.
  Lemma keys_in c l : In c (keys M l) <-> exists v, In (c, v) l.
  Proof.
    induction l as [|[c' v'] l IH]; cbn; [split; [intros []|intros (? & [])]|].
    destruct (existsb (cfg_eqb M c') (keys M l)) eqn:E.
    - apply (existsb_iff _ cfg_eqb_iff) in E. rewrite IH. split; [intros (v & I); eauto|].
      intros (v & [Q|I]); [|eauto]. assert (c' = c) as -> by congruence. now apply IH.
    - cbn. rewrite IH. split.
      + intros [->|(v & I)]; eauto.
      + intros (v & [Q|I]); [left; congruence|right; eauto].
  Qed.

  (** what the operations keep *)
  Definition grows (g g' : graph) : Prop :=
    g_trans g' = g_trans g /\ n_steps g' = n_steps g /\ g_inf g' = g_inf g /\
    (forall d, incl (g_edges d g) (g_edges d g')) /\ incl (g_todo g) (g_todo g').
  Lemma grows_refl g : grows g g.
  Proof. split; [reflexivity|]. split; [reflexivity|]. split; [reflexivity|]. split; [intros d|]; apply incl_refl. Qed.
  Lemma grows_trans a b c : grows a b -> grows b c -> grows a c.
  Proof.
    intros (A1 & A2 & A3 & A4 & A5) (B1 & B2 & B3 & B4 & B5).
    split; [congruence|]. split; [congruence|]. split; [congruence|]. split; [intros d|]; eapply incl_tran; eauto.
  Qed.

  Definition w_ok (q : St) (w : list Sym) : Prop := length w = ws /\ Forall PS w /\ QS q.
  Definition c_ok (c : cfg) : Prop := c = new_config bs (c_st c) (c_dir c) (c_win c) /\ w_ok (c_st c) (c_win c).
  Definition b_ok (b : block) : Prop := length b = bs /\ Forall PS b.
  Definition good (g : graph) : Prop :=
    (forall c, In c (g_todo g) -> c_ok c) /\ (forall d e, In e (g_edges d g) -> b_ok (snd e)).

  Lemma add_edge_ok d a b g m g' : add_edge M d a b g = (m, g') ->
    grows g g' /\ In (a, b) (g_edges d g') /\ (m = false -> g' = g) /\ (good g -> b_ok b -> good g').
  Proof.
    unfold add_edge. destruct (existsb (edge_eqb M (a, b)) (g_edges d g)) eqn:E.
    - intros Q. assert (m = false) as -> by congruence. assert (g' = g) as -> by congruence.
      apply (existsb_iff _ edge_eqb_iff) in E. split; [apply grows_refl|]. auto.
    - intros Q. assert (m = true) as -> by congruence. apply (f_equal snd) in Q. cbn in Q. subst g'.
      split; [|split; [|split; [discriminate|]]].
      + destruct d; (split; [reflexivity|split; [reflexivity|split; [reflexivity|split; [|apply incl_refl]]]]);
          intros [|]; cbn; try apply incl_refl; apply incl_appl, incl_refl.
      + destruct d; cbn; apply in_or_app; right; left; reflexivity.
      + intros [G1 G2] Lb. split; [destruct d; exact G1|].
        intros d' e I. destruct d, d'; cbn in I; try (now apply (G2 L)); try (now apply (G2 R));
          apply in_app_or in I as [I|[<-|[]]]; try exact Lb; [now apply (G2 L)|now apply (G2 R)].
  Qed.
  Lemma add_config_ok c g m g' : add_config M c g = (m, g') ->
    grows g g' /\ (In c (g_todo g') \/ exists v, In (c, v) (g_trans g')) /\ (m = false -> g' = g) /\ (good g -> c_ok c -> good g').
  Proof.
    unfold add_config.
    destruct (match find_entry M c (g_trans g) with Some _ => true | None => false end || existsb (cfg_eqb M c) (g_todo g)) eqn:E.
    - intros Q. assert (m = false) as -> by congruence. assert (g' = g) as -> by congruence.
      split; [apply grows_refl|]. split; [|auto]. apply orb_true_iff in E as [E|E].
      + right. destruct (find_entry M c (g_trans g)) as [v|] eqn:F; [|discriminate]. exists v. now apply find_entry_in.
      + left. now apply (existsb_iff _ cfg_eqb_iff).
    - intros Q. assert (m = true) as -> by congruence. apply (f_equal snd) in Q. cbn in Q. subst g'.
      split; [|split; [|split; [discriminate|]]].
      + split; [reflexivity|]. split; [reflexivity|]. split; [reflexivity|].
        split; [intros [|]; cbn; apply incl_refl|cbn; apply incl_appl, incl_refl].
      + left. cbn. apply in_or_app. right. now left.
      + intros [G1 G2] Cc. split; [|intros [|]; [apply (G2 L)|apply (G2 R)]].
        cbn. intros x I. apply in_app_or in I as [I|[<-|[]]]; auto.
  Qed.

  Lemma for_each_ok {A} (f : A -> graph -> bool * graph) (Qf : A -> graph -> Prop) (Pf : A -> Prop) :
    (forall a g m g', f a g = (m, g') -> grows g g' /\ Qf a g' /\ (m = false -> g' = g) /\ (good g -> Pf a -> good g')) ->
    (forall a g g', grows g g' -> Qf a g -> Qf a g') ->
    forall l m g m' g', for_each f l (m, g) = (m', g') ->
    grows g g' /\ (forall a, In a l -> Qf a g') /\ (m' = false -> m = false /\ g' = g) /\
    (good g -> (forall a, In a l -> Pf a) -> good g').
  Proof.
    intros F QM. induction l as [|a l IH]; intros m g m' g'; unfold for_each; cbn [fold_left].
    - intros E. assert (m' = m) as -> by congruence. assert (g' = g) as -> by congruence.
      split; [apply grows_refl|]. split; [intros ? []|]. auto.
    - cbn [snd fst]. destruct (f a g) as [b g1] eqn:E1. intros E.
      destruct (F _ _ _ _ E1) as (F1 & F2 & F3 & F4).
      destruct (IH _ _ _ _ E) as (H1 & H2 & H3 & H4).
      split; [eapply grows_trans; eassumption|]. split; [|split].
      + intros x [<-|I]; [eapply QM; eassumption|auto].
      + intros Em. destruct (H3 Em) as [H5 ->]. apply orb_false_iff in H5 as [-> ->]. split; [reflexivity|auto].
      + intros G Pl. apply H4; [apply F4; [exact G|apply Pl; now left]|]. intros x I. apply Pl. now right.
  Qed.

  (** the effect of update_set on a running transition *)
  Definition done (g : graph) (old new : cfg) (d : dir) : Prop :=
    let bd := other d in
    let nf := get_block bs (c_win new) bd 0 in
    In (get_block bs (c_win new) bd 1, nf) (g_edges bd g) /\
    (forall b, In (get_block bs (c_win old) bd 0, b) (g_edges bd g) -> In (nf, b) (g_edges bd g)) /\
    (forall b, In (get_block bs (c_win old) d 0, b) (g_edges d g) ->
       In (shift_front bs new b) (g_todo g) \/ exists v, In (shift_front bs new b, v) (g_trans g)).

  Lemma get_ok w d i : (i * bs + bs <= length w)%nat -> Forall PS w -> b_ok (get_block bs w d (Z.of_nat i)).
  Proof.
    intros H F. split; [now apply get_length|].
    assert (X : forall a b, Forall PS (firstn a (skipn b w))).
    { intros a b. apply Forall_forall. intros x I. rewrite Forall_forall in F. apply F.
      rewrite <- (firstn_skipn b w). apply in_or_app. right. rewrite <- (firstn_skipn a (skipn b w)). apply in_or_app. now left. }
    destruct d; [rewrite getL by exact bs_pos|rewrite getR by assumption]; apply X.
  Qed.
  Lemma shift_ok new b : w_ok (c_st new) (c_win new) -> b_ok b -> c_ok (shift_front bs new b).
  Proof.
    intros (L1 & F1 & Q1) (L2 & F2). unfold c_ok, shift_front. split; [destruct (c_dir new); reflexivity|].
    unfold new_config. cbn [c_win c_st]. unfold zlen. rewrite L1.
    replace (Z.of_nat ws - Z.of_nat bs)%Z with (Z.of_nat (ws - bs)) by lia.
    change 0%Z with (Z.of_nat 0). rewrite !pyslice_ok by lia.
    assert (X : forall a b, Forall PS (firstn a (skipn b (c_win new)))).
    { intros a b'. apply Forall_forall. intros x I. rewrite Forall_forall in F1. apply F1.
      rewrite <- (firstn_skipn b' (c_win new)). apply in_or_app. right.
      rewrite <- (firstn_skipn a (skipn b' (c_win new))). apply in_or_app. now left. }
    split; [|split; [|exact Q1]].
    - destruct (c_dir new); rewrite app_length, firstn_length, skipn_length; lia.
    - destruct (c_dir new); apply Forall_app; auto.
  Qed.

  Lemma update_ok old g m g' : update_set M bs ord_b old g = Some (m, g') ->
    grows g g' /\
    (good g -> (forall t new, In (old, (t, Some new)) (g_trans g) -> w_ok (c_st new) (c_win new)) -> good g') /\
    (m = false -> g' = g /\
       forall t new, find_entry M old (g_trans g) = Some (t, new) -> t_cond t = RUNNING ->
         exists nw, new = Some nw /\ done g old nw (t_dir t)).
  Proof.
    unfold update_set. destruct (find_entry M old (g_trans g)) as [[t new]|] eqn:Ef; [|discriminate].
    destruct (cond_eqb (t_cond t) RUNNING) eqn:Ec.
    2:{ intros E. assert (m = false) as -> by congruence. assert (g' = g) as -> by congruence.
        split; [apply grows_refl|]. split; [auto|]. intros _. split; [reflexivity|].
        intros t' new' Q C. assert (t' = t) as -> by congruence. rewrite C in Ec. discriminate. }
    destruct new as [new|]; [|discriminate]. set (bd := other (t_dir t)).
    destruct (add_edge M bd (get_block bs (c_win new) bd 1) (get_block bs (c_win new) bd 0) g) as [m1 g1] eqn:E1.
    cbn [snd].
    destruct (for_each _ (successors M ord_b bd (get_block bs (c_win old) bd 0) g1) (m1, g1)) as [m2 g2] eqn:E2.
    cbn [snd].
    destruct (for_each _ (successors M ord_b (t_dir t) (get_block bs (c_win old) (t_dir t) 0) g2) (m2, g2)) as [m3 g3] eqn:E3.
    intros E. assert (m = m3) as -> by congruence. assert (g' = g3) as -> by congruence. clear E.
    apply add_edge_ok in E1 as (A1 & A2 & A3 & A4).
    apply (for_each_ok _ (fun b g => In (get_block bs (c_win new) bd 0, b) (g_edges bd g)) b_ok) in E2;
      [|intros; now apply add_edge_ok|intros a x y (_ & _ & _ & X & _); apply X].
    destruct E2 as (B1 & B2 & B3 & B4).
    apply (for_each_ok _ (fun b g => In (shift_front bs new b) (g_todo g) \/ exists v, In (shift_front bs new b, v) (g_trans g))
             (fun b => c_ok (shift_front bs new b))) in E3;
      [|intros; now apply add_config_ok
       |intros a x y (X & _ & _ & _ & Y) [I|(v & I)]; [left; now apply Y|right; exists v; now rewrite X]].
    destruct E3 as (C1 & C2 & C3 & C4).
    split; [eapply grows_trans; [exact A1|eapply grows_trans; eassumption]|]. split.
    - intros G LW. assert (Lw : w_ok (c_st new) (c_win new)) by (apply (LW t); now apply find_entry_in).
      assert (G1 : good g1).
      { apply A4; [exact G|]. change 0%Z with (Z.of_nat 0). destruct Lw as (? & ? & ?). apply get_ok; [lia|assumption]. }
      assert (G2 : good g2).
      { apply B4; [exact G1|]. intros b I. apply successors_in in I. exact (proj2 G1 _ _ I). }
      apply C4; [exact G2|]. intros b I. apply successors_in in I. apply shift_ok; [exact Lw|]. exact (proj2 G2 _ _ I).
    - intros ->. destruct (C3 eq_refl) as [-> ->]. destruct (B3 eq_refl) as [-> ->]. rewrite (A3 eq_refl) in *.
      split; [reflexivity|]. intros t' new' Q _. assert (t' = t) as -> by congruence.
      exists new. split; [congruence|]. split; [exact A2|]. split.
      + intros b I. apply B2. now apply successors_in.
      + intros b I. apply C2. now apply successors_in.
  Qed.

  (** ** the run *)
  Definition init_cfg : cfg := new_config bs (m_init_st M) R (repeat (m_init_sym M) ws).
  Definition blank : block := repeat (m_init_sym M) bs.

  Definition fact (e : entry) : Prop :=
    let '(c, (t, new)) := e in
    c_ok c /\ (exists mx, sim_limited M (c_st c) (c_win c) (c_pos c) (c_dir c) mx = Some t) /\
    (t_cond t = RUNNING \/ t_cond t = INF_REPEAT) /\
    new = (if cond_eqb (t_cond t) RUNNING then
             Some (Config (t_state t) (t_dir t) (t_sym t) (match t_dir t with L => -1 | R => zlen (t_sym t) end)%Z)
           else None).
  Hypothesis SIM_OK : forall c mx t, c_ok c -> sim_limited M (c_st c) (c_win c) (c_pos c) (c_dir c) mx = Some t ->
    t_cond t = RUNNING -> w_ok (t_state t) (t_sym t).

  Definition inv (l : list cfg) (g : graph) : Prop :=
    good g /\ (forall c, In c l -> c_ok c) /\ (forall e, In e (g_trans g) -> fact e) /\
    (forall d, In (blank, blank) (g_edges d g)) /\
    (In init_cfg l \/ In init_cfg (g_todo g) \/ exists v, In (init_cfg, v) (g_trans g)).

  Lemma update_inv l old g m g' : inv l g -> update_set M bs ord_b old g = Some (m, g') -> inv l g'.
  Proof.
    intros (G & I1 & I2 & I3 & I4) E. destruct (update_ok _ _ _ _ E) as ((T1 & _ & _ & T4 & T5) & H & _).
    split; [|split; [exact I1|split; [rewrite T1; exact I2|split; [intros d; apply T4, I3|]]]].
    - apply H; [exact G|]. intros t new I. destruct (I2 _ I) as (C & (mx & S) & _ & N).
      destruct (cond_eqb (t_cond t) RUNNING) eqn:Ec; [|discriminate].
      assert (new = Config (t_state t) (t_dir t) (t_sym t) (match t_dir t with L => -1 | R => zlen (t_sym t) end)%Z) as -> by congruence.
      cbn. apply (SIM_OK old mx t C S). destruct (t_cond t); congruence || discriminate.
    - destruct I4 as [I4|[I4|(v & I4)]]; [now left|right; left; apply T5, I4|right; right; exists v; now rewrite T1].
  Qed.

  Lemma batch_inv mx l : forall g g', inv l g -> sim_batch M bs ord_b mx l g = Some (Some g') -> inv [] g'.
  Proof.
    induction l as [|c l IH]; intros g g' I; cbn [sim_batch].
    - intros E. assert (g' = g) as -> by congruence. exact I.
    - unfold sim_config.
      destruct (sim_limited M (c_st c) (c_win c) (c_pos c) (c_dir c) (Z.to_nat (mx - n_steps g))) as [t|] eqn:Es; [|discriminate].
      set (nw := if cond_eqb (t_cond t) RUNNING then _ else None).
      set (g1 := Graph (g_todo g) _ _ _ _ _ _ _).
      assert (I1 : t_cond t = RUNNING \/ t_cond t = INF_REPEAT -> inv l g1).
      { intros C. destruct I as ((G1 & G2) & H1 & H2 & H3 & H4).
        assert (Cc : c_ok c) by (apply H1; now left).
        split; [split; [exact G1|intros [|]; [apply (G2 L)|apply (G2 R)]]|].
        split; [intros x X; apply H1; now right|]. split; [|split; [intros [|]; [apply (H3 L)|apply (H3 R)]|]].
        - intros e [<-|X]; [|auto]. split; [exact Cc|]. split; [eauto|]. split; [exact C|reflexivity].
        - destruct H4 as [[<-|H4]|[H4|(v & H4)]]; [|now left|right; now left|].
          + right. right. exists (t, nw). now left.
          + right. right. exists v. now right. }
      destruct (t_cond t) eqn:Ec; try discriminate.
      + destruct (update_set M bs ord_b c g1) as [[m g2]|] eqn:Eu; [|discriminate].
        apply IH. eapply update_inv; [|exact Eu]. auto.
      + apply IH. auto.
  Qed.
  Lemma todo_inv mx fuel : forall g g', inv [] g -> sim_todo M bs ord_c ord_b fuel mx g = Some (Some g') ->
    inv [] g' /\ g_todo g' = [].
  Proof.
    induction fuel as [|fuel IH]; intros g g' I; cbn [sim_todo]; destruct (g_todo g) as [|x td] eqn:Et.
    1,3: intros E; assert (g' = g) as -> by congruence; auto.
    - discriminate.
    - destruct (sim_batch _ _ _ _ _ _) as [[g1|]|] eqn:Eb; [|discriminate|discriminate].
      apply IH. eapply batch_inv; [|exact Eb]. destruct I as ((G1 & G2) & H1 & H2 & H3 & H4). rewrite Et in *.
      split; [split; [intros ? []|intros [|]; [apply (G2 L)|apply (G2 R)]]|].
      split; [intros y Y; apply (proj1 (ord_c_ok _ _)) in Y; apply G1, Y|]. split; [exact H2|].
      split; [intros [|]; [apply (H3 L)|apply (H3 R)]|].
      destruct H4 as [[]|[H4|H4]]; [left; now apply ord_c_ok|now right; right].
  Qed.
  Lemma all_inv l : forall m g m' g', inv [] g -> update_all M bs ord_b l (m, g) = Some (m', g') ->
    inv [] g' /\ (m' = false -> g' = g /\ m = false /\ forall c, In c l -> update_set M bs ord_b c g = Some (false, g)).
  Proof.
    induction l as [|c l IH]; intros m g m' g' I; cbn [update_all snd fst].
    - intros E. assert (m' = m) as -> by congruence. assert (g' = g) as -> by congruence. split; [exact I|].
      intros ->. split; [reflexivity|]. split; [reflexivity|]. intros ? [].
    - destruct (update_set M bs ord_b c g) as [[b g1]|] eqn:Eu; [|discriminate]. intros E.
      destruct (IH _ _ _ _ (update_inv _ _ _ _ _ I Eu) E) as [I' H]. split; [exact I'|].
      intros Em. destruct (H Em) as (-> & Eb & Hl). apply orb_false_iff in Eb as [-> ->].
      destruct (update_ok _ _ _ _ Eu) as (_ & _ & K). destruct (K eq_refl) as [-> _].
      split; [reflexivity|]. split; [reflexivity|]. intros x [<-|X]; [exact Eu|auto].
  Qed.

  (** a graph closed under the updates *)
  Definition closed_graph (g : graph) : Prop :=
    (forall d, In (blank, blank) (g_edges d g)) /\ (exists v, In (init_cfg, v) (g_trans g)) /\
    forall c v, In (c, v) (g_trans g) -> exists t mx, c_ok c /\
      sim_limited M (c_st c) (c_win c) (c_pos c) (c_dir c) mx = Some t /\
      (t_cond t = INF_REPEAT \/
       t_cond t = RUNNING /\ length (t_sym t) = ws /\
       let new := Config (t_state t) (t_dir t) (t_sym t) (match t_dir t with L => -1 | R => zlen (t_sym t) end)%Z in
       let bd := other (t_dir t) in
       In (get_block bs (t_sym t) bd 1, get_block bs (t_sym t) bd 0) (g_edges bd g) /\
       (forall b, In (get_block bs (c_win c) bd 0, b) (g_edges bd g) -> In (get_block bs (t_sym t) bd 0, b) (g_edges bd g)) /\
       (forall b, In (get_block bs (c_win c) (t_dir t) 0, b) (g_edges (t_dir t) g) ->
          exists v, In (shift_front bs new b, v) (g_trans g))).

  Lemma loop_closed fuel tf mx mi mc me : forall it g it' g', inv [] g ->
    run_loop M bs ord_c ord_b fuel tf mx mi mc me it g = Some (true, it', g') -> closed_graph g'.
  Proof.
    induction fuel as [|fuel IH]; intros it g it' g' I; cbn [run_loop]; [discriminate|].
    destruct (sim_todo _ _ _ _ _ _ _) as [[g1|]|] eqn:Et; [|discriminate|discriminate].
    destruct (todo_inv _ _ _ _ I Et) as [I1 T1].
    destruct (update_all _ _ _ _ _) as [[[|] g2]|] eqn:Eu; [| |discriminate].
    - destruct (all_inv _ _ _ _ _ I1 Eu) as [I2 _]. destruct (_ || _)%bool; [discriminate|]. apply IH, I2.
    - intros E. assert (g' = g2) as -> by congruence.
      destruct (all_inv _ _ _ _ _ I1 Eu) as [_ H]. destruct (H eq_refl) as (-> & _ & HU).
      destruct I1 as (G & _ & F & B & IN). split; [exact B|]. split.
      + destruct IN as [[]|[IN|IN]]; [now rewrite T1 in IN|exact IN].
      + intros c v I2. assert (K : In c (ord_c (keys M (g_trans g1)))) by (apply ord_c_ok, keys_in; eauto).
        specialize (HU c K). destruct (update_ok _ _ _ _ HU) as (_ & _ & U). destruct (U eq_refl) as [_ U'].
        destruct (find_entry_some _ _ _ I2) as ([t new] & Ef). pose proof (F _ (find_entry_in _ _ _ Ef)) as (Cc & (mx' & S) & C & N).
        exists t, mx'. split; [exact Cc|]. split; [exact S|]. destruct C as [C|C]; [right|now left].
        split; [exact C|]. split; [now apply (SIM_OK c mx' t)|]. cbv zeta.
        destruct (U' t new Ef C) as (nw & En & D1 & D2 & D3). rewrite C in N. cbn [cond_eqb] in N.
        assert (nw = Config (t_state t) (t_dir t) (t_sym t) (match t_dir t with L => -1 | R => zlen (t_sym t) end)%Z) as -> by congruence.
        cbn [c_win] in *. split; [exact D1|]. split; [exact D2|]. intros b Ib.
        destruct (D3 b Ib) as [D|D]; [now rewrite T1 in D|exact D].
  Qed.
  Hypothesis P_init : PS (m_init_sym M).
  Hypothesis Q_init : QS (m_init_st M).
  Lemma repeat_P k : Forall PS (repeat (m_init_sym M) k).
  Proof. apply Forall_forall. intros x I. apply repeat_spec in I. now subst. Qed.
  Lemma new_inv : inv [] (graph_new M bs ws).
  Proof.
    assert (C0 : c_ok init_cfg).
    { split; [reflexivity|]. split; [apply repeat_length|]. split; [apply repeat_P|exact Q_init]. }
    split; [split|].
    - intros c [<-|[]]. exact C0.
    - intros [|] e [<-|[]]; (split; [cbn; apply repeat_length|apply repeat_P]).
    - split; [intros ? []|]. split; [intros ? []|]. split; [intros [|]; now left|]. right. left. now left.
  Qed.

  (** *** the run returns *)
  Hypothesis TOTAL : forall c mx, c_ok c -> sim_limited M (c_st c) (c_win c) (c_pos c) (c_dir c) mx <> None.
  Hypothesis STEPS : forall c mx t, c_ok c -> sim_limited M (c_st c) (c_win c) (c_pos c) (c_dir c) mx = Some t -> (0 < t_steps t)%nat.

  Lemma sim_limited_0 q w p d t : sim_limited M q w p d 0 = Some t -> t_cond t = GAVE_UP.
  Proof.
    unfold sim_limited. cbn [sim_loop]. destruct (tget _ _); [|discriminate]. destruct (m_trans _ _ _ _); [|discriminate].
    cbn. intros E. now injection E as <-.
  Qed.

  Lemma update_total l old g : inv l g -> (exists v, In (old, v) (g_trans g)) -> update_set M bs ord_b old g <> None.
  Proof.
    intros (_ & _ & F & _) (v & I). unfold update_set. destruct (find_entry_some _ _ _ I) as ([t new] & E). rewrite E.
    apply find_entry_in in E. destruct (F _ E) as (_ & _ & _ & N). rewrite N.
    destruct (cond_eqb (t_cond t) RUNNING); discriminate.
  Qed.
  Lemma update_grows l old g m g' : inv l g -> update_set M bs ord_b old g = Some (m, g') -> grows g g'.
  Proof. intros _ E. now apply update_ok in E. Qed.

  Lemma batch_total mx l : forall g, inv l g ->
    sim_batch M bs ord_b mx l g = Some None \/
    exists g', sim_batch M bs ord_b mx l g = Some (Some g') /\ (n_steps g + Z.of_nat (length l) <= n_steps g')%Z /\
      (l <> [] -> n_steps g < mx)%Z.
  Proof.
    induction l as [|c l IH]; intros g I; cbn [sim_batch].
    - right. exists g. split; [reflexivity|]. split; [cbn; lia|congruence].
    - unfold sim_config.
      assert (Cc : c_ok c) by (apply I; now left).
      destruct (sim_limited M (c_st c) (c_win c) (c_pos c) (c_dir c) (Z.to_nat (mx - n_steps g))) as [t|] eqn:Es;
        [|now apply TOTAL in Es].
      pose proof (STEPS _ _ _ Cc Es) as SP.
      set (nw := if cond_eqb (t_cond t) RUNNING then _ else None).
      set (g1 := Graph (g_todo g) _ _ _ _ _ _ _).
      assert (I1 : t_cond t = RUNNING \/ t_cond t = INF_REPEAT -> inv l g1).
      { intros C. destruct I as ((G1 & G2) & H1 & H2 & H3 & H4).
        split; [split; [exact G1|intros [|]; [apply (G2 L)|apply (G2 R)]]|].
        split; [intros x X; apply H1; now right|]. split; [|split; [intros [|]; [apply (H3 L)|apply (H3 R)]|]].
        - intros e [<-|X]; [|auto]. split; [exact Cc|]. split; [eauto|]. split; [exact C|reflexivity].
        - destruct H4 as [[<-|H4]|[H4|(v & H4)]]; [|now left|right; now left|].
          + right. right. exists (t, nw). now left.
          + right. right. exists v. now right. }
      assert (LT : t_cond t <> GAVE_UP -> (n_steps g < mx)%Z).
      { intros NG. destruct (Z.lt_ge_cases (n_steps g) mx) as [|GE]; [assumption|].
        replace (Z.to_nat (mx - n_steps g)) with 0%nat in Es by lia. now apply sim_limited_0 in Es. }
      assert (S1 : n_steps g1 = (n_steps g + Z.of_nat (t_steps t))%Z) by reflexivity.
      destruct (t_cond t) eqn:Ec; auto.
      + assert (IN : exists v, In (c, v) (g_trans g1)) by (eexists; left; reflexivity).
        destruct (update_set M bs ord_b c g1) as [[m g2]|] eqn:Eu; [|now apply (update_total l) in Eu; auto].
        destruct (update_grows l _ _ _ _ (I1 (or_introl eq_refl)) Eu) as (_ & S2 & _).
        destruct (IH g2) as [->|(g' & -> & H & _)]; [eapply update_inv; [apply I1; auto|exact Eu]|now left|].
        right. exists g'. split; [reflexivity|]. split; [cbn [length]; lia|]. intros _. apply LT. discriminate.
      + destruct (IH g1) as [->|(g' & -> & H & _)]; [apply I1; auto|now left|].
        right. exists g'. split; [reflexivity|]. split; [cbn [length]; lia|]. intros _. apply LT. discriminate.
  Qed.

  Lemma todo_total mx fuel : forall g, inv [] g -> (mx - n_steps g < Z.of_nat fuel)%Z -> (1 <= fuel)%nat ->
    sim_todo M bs ord_c ord_b fuel mx g = Some None \/
    exists g', sim_todo M bs ord_c ord_b fuel mx g = Some (Some g') /\ (n_steps g <= n_steps g')%Z.
  Proof.
    induction fuel as [|fuel IH]; intros g I LF L1; cbn [sim_todo]; destruct (g_todo g) as [|x td] eqn:Et.
    1,3: right; exists g; split; [reflexivity|lia].
    - lia.
    - set (g1 := Graph [] _ _ _ _ _ _ _).
      assert (I1 : inv (ord_c (x :: td)) g1).
      { destruct I as ((G1 & G2) & H1 & H2 & H3 & H4). rewrite Et in *.
        split; [split; [intros ? []|intros [|]; [apply (G2 L)|apply (G2 R)]]|].
        split; [intros y Y; apply (proj1 (ord_c_ok _ _)) in Y; apply G1, Y|]. split; [exact H2|].
        split; [intros [|]; [apply (H3 L)|apply (H3 R)]|].
        destruct H4 as [[]|[H4|H4]]; [left; now apply ord_c_ok|now right; right]. }
      assert (NE : ord_c (x :: td) <> []).
      { intros E. assert (X : In x (ord_c (x :: td))) by (apply ord_c_ok; now left). now rewrite E in X. }
      destruct (batch_total mx _ g1 I1) as [->|(g2 & Eb & H1 & H2)]; [now left|]. rewrite Eb.
      specialize (H2 NE). pose proof (batch_inv _ _ _ _ I1 Eb) as I2.
      assert (Lo : (1 <= Z.of_nat (length (ord_c (x :: td))))%Z) by (destruct (ord_c (x :: td)); [congruence|cbn; lia]).
      change (n_steps g1) with (n_steps g) in *.
      destruct (IH g2 I2) as [->|(g' & -> & H)]; [lia|lia|now left|]. right. exists g'. split; [reflexivity|lia].
  Qed.

  Lemma all_total l : forall m g, inv [] g -> (forall c, In c l -> exists v, In (c, v) (g_trans g)) ->
    exists m' g', update_all M bs ord_b l (m, g) = Some (m', g') /\ n_steps g' = n_steps g.
  Proof.
    induction l as [|c l IH]; intros m g I K; cbn [update_all snd fst]; [eauto|].
    destruct (update_set M bs ord_b c g) as [[b g1]|] eqn:Eu; [|apply (update_total [] c g) in Eu; [destruct Eu|exact I|apply K; now left]].
    destruct (update_grows [] _ _ _ _ I Eu) as (T & S1 & _).
    destruct (IH (m || b)%bool g1) as (m' & g' & E & S2).
    - eapply update_inv; eassumption.
    - intros x X. rewrite T. apply K. now right.
    - exists m', g'. split; [exact E|]. congruence.
  Qed.
  Lemma loop_total fuel tf mx mi mc me : forall it g, inv [] g -> (0 <= n_steps g)%Z -> (Z.max 0 mx < Z.of_nat tf)%Z ->
    (mi - it < Z.of_nat fuel)%Z -> (1 <= fuel)%nat ->
    run_loop M bs ord_c ord_b fuel tf mx mi mc me it g <> None.
  Proof.
    induction fuel as [|fuel IH]; intros it g I S0 LT LM L1; cbn [run_loop]; [lia|].
    destruct (todo_total mx tf g I) as [->|(g1 & Et & S1)]; [lia|lia|discriminate|]. rewrite Et.
    destruct (todo_inv _ _ _ _ I Et) as [I1 _].
    destruct (all_total (ord_c (keys M (g_trans g1))) false g1 I1) as (m & g2 & Eu & S2).
    { intros c X. apply (proj1 (ord_c_ok _ _)) in X. now apply keys_in. }
    rewrite Eu. destruct m; [|discriminate].
    destruct (all_inv _ _ _ _ _ I1 Eu) as [I2 _].
    destruct (mi <=? it + 1)%Z eqn:Em; cbn [orb]; [discriminate|]. destruct (_ || _)%bool; [discriminate|].
    apply Z.leb_gt in Em. apply IH; [exact I2|lia|lia|lia|lia].
  Qed.
  Lemma run_total mx mi mc me : run M bs ord_c ord_b ws mx mi mc me <> None.
  Proof. unfold run. apply loop_total; [apply new_inv|cbn; lia|lia|lia|lia]. Qed.
End Graph.

(** ** a closed graph and the run of the machine *)
Lemma sim_loop_length {Sym St} (M : machine Sym St) max fuel : forall w n loops seen old next t,
  sim_loop M max fuel w n loops seen old next = Some t -> length (t_sym t) = length (w_tape w).
Proof.
  induction fuel as [|fuel IH]; intros w n loops seen old next t; cbn [sim_loop]; [discriminate|].
  destruct (tget (w_tape w) (w_pos w)) as [a|]; [|discriminate].
  destruct (m_trans M a (w_state w) (w_dir w)) as [tr|]; [|discriminate].
  set (w' := WCfg _ _ _ _).
  assert (Hl : length (lset (w_tape w) (Z.to_nat (w_pos w)) (t_sym tr)) = length (w_tape w)) by apply lset_length.
  repeat match goal with
  | |- (if ?b then _ else _) = _ -> _ => destruct b
  end; try (intros E; injection E as <-; exact Hl).
  intros E. apply IH in E. cbn in E. congruence.
Qed.
Lemma sim_limited_length {Sym St} (M : machine Sym St) q tape pos d max t :
  sim_limited M q tape pos d max = Some t -> length (t_sym t) = length tape.
Proof. unfold sim_limited. intros E. apply sim_loop_length in E. exact E. Qed.

Lemma map_const_seq {A} (x : A) n : forall a, map (fun _ : nat => x) (seq a n) = repeat x n.
Proof. induction n as [|n IH]; intros a; [reflexivity|]. cbn. now rewrite IH. Qed.
Lemma rev_repeat' {A} (x : A) n : rev (repeat x n) = repeat x n.
Proof.
  induction n as [|n IH]; [reflexivity|]. cbn. rewrite IH. clear IH. induction n as [|n IH]; [reflexivity|]. cbn. now rewrite IH.
Qed.
Lemma firstn_app_n {A} n (x y : list A) : length x = n -> firstn n (x ++ y) = x.
Proof. intros <-. apply firstn_app_len. Qed.
Lemma skipn_app_n {A} n (x y : list A) : length x = n -> skipn n (x ++ y) = y.
Proof. intros <-. apply skipn_app_len. Qed.

Section Sound.
  Context {Sym St : Type}.
  Variables (T : table) (M : machine Sym St) (Rp : dcfg Sym St -> config -> Prop) (halted : St -> Prop).
  Hypothesis MS : msound True T M Rp halted.
  Hypothesis NG : no_give_up M Rp.
  Hypothesis SW : seen_wf M Rp.
  Variable bs ws : nat.
  Hypothesis bs_pos : (0 < bs)%nat.
  Hypothesis ws_ok : (2 * bs <= ws)%nat.
  Notation edges g d := (g_edges d g).
  Variables (PT : Sym -> Prop) (QT : St -> Prop).

  (** config [c] of the graph describes the machine configuration [e] *)
  Definition describes (g : @graph Sym St) (c : @cfg Sym St) (e : config) : Prop :=
    exists l r, Rp (win l (c_win c) (c_pos c) (c_dir c) (c_st c) r) e /\
      lang bs (edges g L) L (get_block bs (c_win c) L 0) l /\
      lang bs (edges g R) R (get_block bs (c_win c) R 0) r.

  Lemma get0L (w : list Sym) : get_block bs w L 0 = firstn bs w.
  Proof. change 0%Z with (Z.of_nat 0). rewrite getL by exact bs_pos. reflexivity. Qed.
  Lemma get1L (w : list Sym) : get_block bs w L 1 = firstn bs (skipn bs w).
  Proof. change 1%Z with (Z.of_nat 1). rewrite getL by exact bs_pos. now rewrite Nat.mul_1_l. Qed.
  Lemma get0R (w : list Sym) : length w = ws -> get_block bs w R 0 = skipn (ws - bs) w.
  Proof.
    intros H. change 0%Z with (Z.of_nat 0). rewrite getR by lia. rewrite H. cbn [Nat.mul Nat.add].
    apply firstn_all2. rewrite skipn_length. lia.
  Qed.
  Lemma get1R (w : list Sym) : length w = ws -> get_block bs w R 1 = firstn bs (skipn (ws - (bs + bs)) w).
  Proof. intros H. change 1%Z with (Z.of_nat 1). rewrite getR by lia. now rewrite H, Nat.mul_1_l. Qed.

  Lemma step_describes g c e : closed_graph M bs ws PT QT g -> (exists v, In (c, v) (g_trans g)) -> describes g c e ->
    nonhalting T e \/
    exists k e', (0 < k)%nat /\ steps T k e = Some e' /\ exists c', (exists v, In (c', v) (g_trans g)) /\ describes g c' e'.
  Proof.
    intros (_ & _ & CL) (v & I) (l & r & R0 & LL & LR).
    destruct (CL c v I) as (t & mx & (Ec & Lc & _) & S & C).
    destruct (sim_limited_sound True T M Rp halted MS (fun _ => NG) SW mx _ _ _ _ t l r e R0 S) as (W & Lt & _).
    unfold wout in W. destruct C as [C|(C & Lw & D1 & D2 & D3)]; rewrite C in W; [left; now apply W|right].
    destruct W as (_ & P & _ & e' & E & R1). exists (t_steps t), e'. split; [exact P|]. split; [exact E|].
    set (w := t_sym t) in *.
    destruct (t_dir t) eqn:Ed; cbn [other] in *.
    - (* the machine left the window to the left *)
      set (f := bk bs L l 0).
      assert (Lf : length f = bs) by apply bk_length.
      destruct (D3 f (proj1 LL)) as (v' & I'). exists (shift_front bs (Config (t_state t) L w (-1)) f).
      split; [eauto|].
      assert (Ew : shift_front bs (Config (t_state t) L w (-1)) f =
                   Config (t_state t) L (f ++ firstn (ws - bs) w) (Z.of_nat bs - 1)).
      { unfold shift_front, new_config. cbn [c_dir c_st c_win]. unfold zlen. rewrite Lw.
        replace (Z.of_nat ws - Z.of_nat bs)%Z with (Z.of_nat (ws - bs)) by lia.
        change 0%Z with (Z.of_nat 0). rewrite pyslice_ok by lia. now rewrite Nat.sub_0_r. }
      rewrite Ew. exists (sdrop bs l), (sapp (skipn (ws - bs) w) r). cbn [c_win c_pos c_dir c_st].
      assert (Lw2 : length (f ++ firstn (ws - bs) w) = ws) by (rewrite app_length, firstn_length; lia).
      split; [|split].
      + eapply (ms_ext _ _ _ _ _ MS); [|exact R1]. unfold win. 
        replace (winpos L (-1)) with 0%nat by reflexivity.
        replace (winpos L (Z.of_nat bs - 1)) with (length f) by (unfold winpos; lia).
        rewrite firstn_app_len, skipn_app_len. cbn [firstn skipn rev].
        split; [|split; [|split; reflexivity]].
        * intros i. cbn [d_l]. rewrite (sapp_nil l i). exact (bk_split bs bs_pos L l i).
        * intros i. cbn [d_r]. rewrite <- (firstn_skipn (ws - bs) w) at 1. apply sapp_app.
      + rewrite get0L. rewrite (firstn_app_n bs f) by exact Lf. unfold f. eapply lang_drop; eassumption.
      + rewrite (get0R _ Lw2). rewrite skipn_app, (skipn_all2 f) by lia. cbn [app]. rewrite Lf.
        rewrite (get0R _ Lw), (get1R _ Lw) in D1. rewrite (get0R _ Lw) in D2.
        change (skipn (ws - bs) w) with (orient R (skipn (ws - bs) w)) at 1.
        apply lang_push; [exact bs_pos|rewrite skipn_length; lia| |].
        * replace (skipn (ws - bs - bs) (firstn (ws - bs) w)) with (firstn bs (skipn (ws - (bs + bs)) w)); [exact D1|].
          rewrite firstn_skipn_comm. f_equal; [|]. all: try (f_equal; lia). lia.
        * destruct LR as [A B]. split; [apply D2, A|exact B].
    - (* the machine left the window to the right *)
      set (f := bk bs R r 0).
      assert (Lf : length f = bs) by apply bk_length.
      destruct (D3 f (proj1 LR)) as (v' & I'). exists (shift_front bs (Config (t_state t) R w (zlen w)) f).
      split; [eauto|].
      assert (Ew : shift_front bs (Config (t_state t) R w (zlen w)) f =
                   Config (t_state t) R (skipn bs w ++ f) (Z.of_nat (ws - bs))).
      { unfold shift_front, new_config. cbn [c_dir c_st c_win]. unfold zlen. rewrite Lw.
        rewrite pyslice_ok by lia. rewrite (firstn_all2 (n := ws - bs)) by (rewrite skipn_length; lia).
        f_equal. rewrite app_length, skipn_length. lia. }
      rewrite Ew. exists (sapp (rev (firstn bs w)) l), (sdrop bs r). cbn [c_win c_pos c_dir c_st].
      assert (Lw2 : length (skipn bs w ++ f) = ws) by (rewrite app_length, skipn_length; lia).
      assert (Ls : length (skipn bs w) = (ws - bs)%nat) by (rewrite skipn_length; lia).
      split; [|split].
      + eapply (ms_ext _ _ _ _ _ MS); [|exact R1]. unfold win.
        rewrite !winpos_R. rewrite (firstn_app_n (ws - bs) _ f), (skipn_app_n (ws - bs) _ f) by exact Ls.
        rewrite firstn_all, skipn_all.
        split; [|split; [|split; reflexivity]].
        * intros i. cbn [d_l]. rewrite <- (firstn_skipn bs w) at 1. rewrite rev_app_distr. apply sapp_app.
        * intros i. cbn [d_r]. rewrite (sapp_nil r i). exact (bk_split bs bs_pos R r i).
      + rewrite !get0L in *. rewrite get1L in D1.
        change (rev (firstn bs w)) with (orient L (firstn bs w)).
        apply lang_push; [exact bs_pos|rewrite firstn_length; lia| |].
        * rewrite firstn_app. rewrite Ls. replace (bs - (ws - bs))%nat with 0%nat by lia.
          cbn [firstn]. rewrite app_nil_r. exact D1.
        * destruct LL as [A B]. split; [apply D2, A|exact B].
      + rewrite (get0R _ Lw2). rewrite (skipn_app_n (ws - bs) _ f) by exact Ls. unfold f. eapply lang_drop; eassumption.
  Qed.

  Lemma blank_lang E d : In (blank M bs, blank M bs) E -> lang bs E d (blank M bs) (fun _ => m_init_sym M).
  Proof.
    intros I. assert (B : forall n, bk bs d (fun _ => m_init_sym M) n = blank M bs).
    { intros n. unfold bk, blank.
      pose proof (map_const_seq (m_init_sym M) bs 0) as Q.
      rewrite Q. destruct d; [|reflexivity]. cbn. apply rev_repeat'. }
    split; [now rewrite B|]. intros n. now rewrite !B.
  Qed.

  Lemma closed_graph_nonhalting g : closed_graph M bs ws PT QT g -> nonhalting T initial.
  Proof.
    intros CL. apply (nonhalting_invariant_or T (fun e => exists c, (exists v, In (c, v) (g_trans g)) /\ describes g c e)).
    - intros e (c & I & D). destruct (step_describes g c e CL I D) as [N|(k & e' & P & E & H)]; [now left|right; eauto].
    - exists (init_cfg M bs ws). destruct CL as (B & I0 & _). split; [exact I0|].
      exists (fun _ => m_init_sym M), (fun _ => m_init_sym M). unfold init_cfg, new_config. cbn [c_win c_pos c_dir c_st].
      split; [|split].
      + eapply (ms_ext _ _ _ _ _ MS); [|apply (ms_init _ _ _ _ _ MS)]. unfold win, zlen.
        rewrite repeat_length. replace (Z.of_nat ws - Z.of_nat bs)%Z with (Z.of_nat (ws - bs)) by lia. rewrite winpos_R.
        assert (Q : forall l : list Sym, (forall x, In x l -> x = m_init_sym M) -> seqv (fun _ => m_init_sym M) (sapp l (fun _ => m_init_sym M))).
        { intros l H i. unfold sapp. destruct (nth_error l i) eqn:E; [|reflexivity]. symmetry. apply H. eapply nth_error_In, E. }
        split; [|split; [|split; reflexivity]]; cbn [d_l d_r]; apply Q; intros x X.
        * apply in_rev in X. apply (repeat_spec ws). rewrite <- (firstn_skipn (ws - bs) (repeat (m_init_sym M) ws)).
          apply in_or_app. now left.
        * apply (repeat_spec ws). rewrite <- (firstn_skipn (ws - bs) (repeat (m_init_sym M) ws)). apply in_or_app. now right.
      + rewrite get0L. replace (firstn bs (repeat (m_init_sym M) ws)) with (blank M bs); [apply blank_lang, B|].
        replace ws with (bs + (ws - bs))%nat by lia. rewrite repeat_app.
        rewrite firstn_app_n by apply repeat_length. reflexivity.
      + rewrite get0R by apply repeat_length.
        replace (skipn (ws - bs) (repeat (m_init_sym M) ws)) with (blank M bs); [apply blank_lang, B|].
        replace ws with ((ws - bs) + bs)%nat at 2 by lia. rewrite repeat_app.
        rewrite skipn_app_n by apply repeat_length. reflexivity.
  Qed.
End Sound.
