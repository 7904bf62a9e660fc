(** * Proofs about the reverse engineering and backtracking filters *)
Require Import ZArith List Lia Bool Arith.
From Verif Require Import Spec_TM M_Turing_Machine P_Stream P_Macro M_Filters.
Import ListNotations.
Local Open Scope nat_scope.

Lemma nth_error_lset {A} (l : list A) : forall i x j,
  nth_error (lset l i x) j = if (Nat.eqb i j && Nat.ltb i (length l))%bool then Some x else nth_error l j.
Proof.
  induction l as [|a l IH]; intros i x j.
  - destruct i; cbn; now rewrite andb_false_r.
  - destruct i, j; cbn; try reflexivity. rewrite IH. reflexivity.
Qed.
Lemma push_some {A} (l : list (list A)) i x l' : push l i x = Some l' ->
  i < length l /\ length l' = length l /\
  forall j, nth_error l' j = if Nat.eqb i j then option_map (fun r => r ++ [x]) (nth_error l j) else nth_error l j.
Proof.
  unfold push. destruct (nth_error l i) as [r|] eqn:E; [|discriminate]. intros Q. injection Q as <-.
  assert (H : i < length l) by (apply nth_error_Some; congruence). split; [exact H|]. split; [apply lset_length|].
  intros j. rewrite nth_error_lset. apply Nat.ltb_lt in H. rewrite H, andb_true_r.
  destruct (Nat.eqb i j) eqn:Ej; [|reflexivity]. apply Nat.eqb_eq in Ej. subst j. now rewrite E.
Qed.
Lemma push_total {A} (l : list (list A)) i x : i < length l -> exists l', push l i x = Some l'.
Proof.
  intros H. unfold push. destruct (nth_error l i) eqn:E; [eauto|]. apply nth_error_None in E. lia.
Qed.
Lemma push_in {A} (l l' : list (list A)) i x : push l i x = Some l' -> exists r, nth_error l' i = Some r /\ In x r.
Proof.
  intros E. destruct (push_some _ _ _ _ E) as (H & _ & N). specialize (N i). rewrite Nat.eqb_refl in N.
  destruct (nth_error l i) as [r|] eqn:Er; [|apply nth_error_None in Er; lia].
  exists (r ++ [x]). split; [exact N|]. apply in_or_app. right. now left.
Qed.
Lemma push_keep {A} (l l' : list (list A)) i x j r y : push l i x = Some l' -> nth_error l j = Some r -> In y r ->
  exists r', nth_error l' j = Some r' /\ In y r'.
Proof.
  intros E Er I. destruct (push_some _ _ _ _ E) as (H & _ & N). rewrite N, Er.
  destruct (Nat.eqb i j); cbn; [|eauto]. eexists. split; [reflexivity|]. apply in_or_app. now left.
Qed.
(** everything in the lists was pushed *)
Lemma push_inv {A} (l l' : list (list A)) i x j r' y : push l i x = Some l' -> nth_error l' j = Some r' -> In y r' ->
  (i = j /\ y = x) \/ exists r, nth_error l j = Some r /\ In y r.
Proof.
  intros E Er I. destruct (push_some _ _ _ _ E) as (H & _ & N). rewrite N in Er.
  destruct (Nat.eqb i j) eqn:Ej; [|eauto]. apply Nat.eqb_eq in Ej. destruct (nth_error l j) as [r|]; [|discriminate].
  injection Er as <-. apply in_app_or in I as [I|[<-|[]]]; [right; eauto|left; auto].
Qed.

(** a loop that establishes a fact at each of its turns and keeps the old ones *)
Lemma ofold_facts {A B} (f : B -> A -> option B) (Q : A -> B -> Prop) (I : B -> Prop) :
  (forall b a b', I b -> f b a = Some b' -> I b' /\ Q a b' /\ forall x, Q x b -> Q x b') ->
  forall l b b', I b -> ofold f l b = Some b' -> I b' /\ (forall a, In a l -> Q a b') /\ forall x, Q x b -> Q x b'.
Proof.
  intros H. induction l as [|a l IH]; intros b b' Ib; cbn [ofold].
  - intros E. injection E as <-. split; [exact Ib|]. split; [intros ? []|auto].
  - destruct (f b a) as [b1|] eqn:E1; [|discriminate]. intros E.
    destruct (H _ _ _ Ib E1) as (I1 & Q1 & K1). destruct (IH _ _ I1 E) as (I2 & Q2 & K2).
    split; [exact I2|]. split; [|auto]. intros x [<-|X]; auto.
Qed.
Lemma ofold_total {A B} (f : B -> A -> option B) (P : A -> Prop) (I : B -> Prop) :
  (forall b a, I b -> P a -> exists b', f b a = Some b' /\ I b') ->
  forall l b, I b -> (forall a, In a l -> P a) -> exists b', ofold f l b = Some b' /\ I b'.
Proof.
  intros H. induction l as [|a l IH]; intros b Ib Pl; cbn [ofold]; [eauto|].
  destruct (H b a Ib) as (b1 & -> & I1); [apply Pl; now left|]. apply IH; [exact I1|]. intros x X. apply Pl. now right.
Qed.
Lemma all_addrs_in n m q s : In (q, s) (all_addrs n m) <-> q < n /\ s < m.
Proof. unfold all_addrs. rewrite in_prod_iff, !in_seq. lia. Qed.

(** a property that every step keeps holds of every configuration reached *)
Lemma reach_inv T (I : config -> Prop) c0 : I c0 ->
  (forall k c c', steps T k c0 = Some c -> I c -> step T c = Some c' -> I c') ->
  forall k c, steps T k c0 = Some c -> I c.
Proof.
  intros I0 H. induction k as [|k IH]; intros c E; [cbn in E; injection E as <-; exact I0|].
  rewrite steps_S in E. destruct (steps T k c0) as [d|] eqn:Ek; [|discriminate]. eapply H; eauto.
Qed.

(** ** Reverse engineering *)
Section Reverse.
  Variables (n m : nat) (tab : ttable).
  Hypothesis W : wf_ttable n m tab.
  Let T := table_of tab.

  Definition cfg_wf (c : config) : Prop := st c < n /\ forall z, tp c z < m.

  (** one step, in terms of the table *)
  Lemma wf_step c c' : cfg_wf c -> step T c = Some c' -> exists t,
    simple_trans tab (tp c (hd c)) (SRun (st c)) = Some t /\ t_cond t = RUNNING /\ t_state t = SRun (st c') /\
    t_sym t < m /\ st c' < n /\ hd c' = (hd c + dz (t_dir t))%Z /\ tp c' = put (tp c) (hd c) (t_sym t).
  Proof.
    intros (Q & A). unfold step, T, table_of. destruct (wf_lookup n m tab _ _ W Q (A (hd c))) as (row & t & E1 & E2 & _ & _ & C).
    rewrite E1, E2. destruct (t_cond t) eqn:Ec; try discriminate.
    destruct C as (_ & C1 & q & C2 & C3). rewrite C2. intros E. injection E as <-. cbn [st hd tp].
    exists t. unfold simple_trans. rewrite E1. split; [exact E2|]. split; [exact Ec|]. split; [exact C2|].
    split; [exact C1|]. split; [exact C3|]. split; reflexivity.
  Qed.
  Lemma wf_keep c c' : cfg_wf c -> step T c = Some c' -> cfg_wf c'.
  Proof.
    intros Wc E. destruct (wf_step _ _ Wc E) as (t & _ & _ & _ & H1 & H2 & _ & H3). split; [exact H2|].
    intros z. rewrite H3. unfold put. destruct (_ =? _)%Z; [exact H1|apply Wc].
  Qed.
  Lemma wf_reach k c : steps T k initial = Some c -> cfg_wf c.
  Proof.
    apply reach_inv; [|intros ? ? ? _; apply wf_keep]. destruct W as (W1 & W2 & _). split; [exact W1|intros z; exact W2].
  Qed.

  Definition s_fact (a : addr) (s : stats) : Prop :=
    forall t, simple_trans tab (snd a) (SRun (fst a)) = Some t ->
    match t_cond t with
    | RUNNING => exists q ts ty, t_state t = SRun q /\ nth_error (s_to_state s) q = Some ts /\ In (a, t) ts /\
        nth_error (s_to_symbol s) (t_sym t) = Some ty /\ In (a, t) ty
    | _ => In a (s_halts s)
    end.
  Lemma stats_facts s : get_stats tab n m = Some s -> forall q x, q < n -> x < m -> s_fact (q, x) s.
  Proof.
    intros E q x Q X. unfold get_stats in E. apply (ofold_facts _ s_fact (fun _ => True)) in E; [| |exact Logic.I].
    - destruct E as (_ & E & _). apply E, all_addrs_in. auto.
    - clear E s q x Q X. intros s a s' _. unfold stats_cell. destruct (simple_trans tab (snd a) (SRun (fst a))) as [t|] eqn:Et; [|discriminate].
      intros E. split; [exact Logic.I|].
      assert (H : (t_cond t = RUNNING /\ exists q ts ty, t_state t = SRun q /\ push (s_to_state s) q (a, t) = Some ts /\
                 push (s_to_symbol s) (t_sym t) (a, t) = Some ty /\ s' = Stats (s_halts s) ts ty) \/
               (t_cond t <> RUNNING /\ s' = Stats (s_halts s ++ [a]) (s_to_state s) (s_to_symbol s))).
      { destruct (t_cond t); try discriminate; try (injection E as <-; right; split; [discriminate|reflexivity]).
        destruct (t_state t) as [q|]; [|discriminate].
        destruct (push (s_to_state s) q (a, t)) as [ts|] eqn:E1; [|discriminate].
        destruct (push (s_to_symbol s) (t_sym t) (a, t)) as [ty|] eqn:E2; [|discriminate].
        injection E as <-. left. split; [reflexivity|]. exists q, ts, ty. auto. }
      destruct H as [(Ec & q & ts & ty & E1 & E2 & E3 & ->)|(Ec & ->)].
      + split.
        * intros t' Et'. assert (t' = t) as -> by congruence. rewrite Ec.
          destruct (push_in _ _ _ _ E2) as (r1 & R1 & I1). destruct (push_in _ _ _ _ E3) as (r2 & R2 & I2).
          exists q, r1, r2. auto.
        * intros b F t' Et'. specialize (F t' Et'). destruct (t_cond t'); try exact F.
          destruct F as (q' & r1 & r2 & F1 & F2 & F3 & F4 & F5).
          destruct (push_keep _ _ _ _ _ _ _ E2 F2 F3) as (r1' & ? & ?).
          destruct (push_keep _ _ _ _ _ _ _ E3 F4 F5) as (r2' & ? & ?). exists q', r1', r2'. auto.
      + split.
        * intros t' Et'. assert (t' = t) as -> by congruence.
          assert (X : In a (s_halts (Stats (s_halts s ++ [a]) (s_to_state s) (s_to_symbol s))))
            by (cbn; apply in_or_app; right; now left).
          destruct (t_cond t); try exact X. congruence.
        * intros b F t' Et'. specialize (F t' Et'). destruct (t_cond t'); try exact F; cbn; apply in_or_app; now left.
  Qed.

  (** the cell is never read *)
  Definition unreached (h : addr) : Prop :=
    forall k c, steps T k initial = Some c -> ~ (st c = fst h /\ tp c (hd c) = snd h).

  Lemma unreachable_ok s h : get_stats tab n m = Some s -> cannot_reach_halt s h = Some true -> unreached h.
  Proof.
    intros Es. pose proof (stats_facts s Es) as F. destruct h as [q x]. unfold cannot_reach_halt.
    assert (ST : forall k c c', steps T k initial = Some c -> step T c = Some c' -> exists a t ts ty,
       nth_error (s_to_state s) (st c') = Some ts /\ In (a, t) ts /\ nth_error (s_to_symbol s) (t_sym t) = Some ty /\ In (a, t) ty /\
       hd c' = (hd c + dz (t_dir t))%Z /\ tp c' = put (tp c) (hd c) (t_sym t)).
    { intros k c c' Ek E. pose proof (wf_reach _ _ Ek) as Wc. destruct (wf_step _ _ Wc E) as (t & E1 & E2 & E3 & E4 & E5 & E6 & E7).
      specialize (F (st c) (tp c (hd c)) (proj1 Wc) (proj2 Wc _) t E1). rewrite E2 in F.
      destruct F as (q' & ts & ty & F1 & F2 & F3 & F4 & F5). assert (q' = st c') as -> by congruence.
      exists (st c, tp c (hd c)), t, ts, ty. auto 10. }
    destruct (nth_error (s_to_state s) q) as [ts|] eqn:Ets; [|discriminate].
    destruct (Nat.eqb (length ts) 0 && negb (Nat.eqb q 0 && Nat.eqb x 0)) eqn:C1.
    - intros _ k c Ek [H1 H2]. cbn in H1, H2. apply andb_true_iff in C1 as [C1 C2]. apply Nat.eqb_eq in C1.
      destruct ts; [clear C1|discriminate]. destruct k as [|k].
      + cbn in Ek. injection Ek as <-. cbn in H1, H2. subst. discriminate.
      + rewrite steps_S in Ek. destruct (steps T k initial) as [d|] eqn:Ed; [|discriminate].
        destruct (ST _ _ _ Ed Ek) as (a & t & ts & ty & X1 & X2 & _). rewrite H1, Ets in X1. injection X1 as <-. destruct X2.
    - destruct (Nat.eqb x 0) eqn:C2; cbn [negb]; [discriminate|]. apply Nat.eqb_neq in C2.
      destruct (nth_error (s_to_symbol s) x) as [ty|] eqn:Ety; [|discriminate].
      destruct (Nat.eqb (length ty) 0) eqn:C3.
      + intros _ k c Ek [_ H2]. cbn in H2. apply Nat.eqb_eq in C3. destruct ty; [clear C3|discriminate].
        assert (N : forall z, tp c z <> x).
        { clear H2. revert k c Ek. apply (reach_inv T (fun c => forall z, tp c z <> x)); [intros z; cbn; auto|].
          intros k c c' Ek N E z. destruct (ST _ _ _ Ek E) as (a & t & ts' & ty & _ & _ & X1 & X2 & _ & ->).
          unfold put. destruct (_ =? _)%Z; [|apply N]. intros Q. rewrite Q, Ety in X1. injection X1 as <-. destruct X2. }
        now apply (N (hd c)).
      + unfold same_direction. rewrite Ets, Ety. destruct ts as [|[a0 t0] ts]; [discriminate|].
        intros E. injection E as E. apply andb_true_iff in E as [D1 D2].
        change (forallb (fun bt : btrans => dir_eqb (t_dir (snd bt)) (t_dir t0)) ((a0, t0) :: ts) = true) in D1.
        assert (D1' : forall a t, In (a, t) ((a0, t0) :: ts) -> t_dir t = t_dir t0).
        { intros a t I. rewrite forallb_forall in D1. specialize (D1 _ I). now apply dir_eqb_eq in D1. }
        assert (D2' : forall a t, In (a, t) ty -> t_dir t = t_dir t0).
        { intros a t I. rewrite forallb_forall in D2. specialize (D2 _ I). now apply dir_eqb_eq in D2. }
        clear D1 D2 C1 C3. set (D := t_dir t0) in *. clearbody D.
        (* nothing in front of the head holds x *)
        intros k c Ek.
        assert (N : (forall z, (0 < dz D * (z - hd c))%Z -> tp c z <> x) /\ (st c = q -> tp c (hd c) <> x)).
        { revert k c Ek. apply (reach_inv T (fun c => (forall z, (0 < dz D * (z - hd c))%Z -> tp c z <> x) /\ (st c = q -> tp c (hd c) <> x)));
            [split; intros; cbn; auto|].
          intros k c c' Ek [N1 N2] E. destruct (ST _ _ _ Ek E) as (a & t & ts' & ty' & X1 & X2 & X3 & X4 & -> & ->).
          assert (Y : t_sym t = x -> t_dir t = D).
          { intros Q. rewrite Q, Ety in X3. injection X3 as <-. eapply D2'; eassumption. }
          split.
          - intros z Hz. unfold put. destruct (z =? hd c)%Z eqn:Ez.
            + apply Z.eqb_eq in Ez. subst z. intros Q. rewrite (Y Q) in Hz. destruct D; cbn [dz] in Hz; lia.
            + apply Z.eqb_neq in Ez. apply N1. destruct D, (t_dir t); cbn [dz] in *; lia.
          - intros Q. rewrite Q, Ets in X1. injection X1 as <-. rewrite (D1' _ _ X2). unfold put.
            replace (hd c + dz D =? hd c)%Z with false by (symmetry; apply Z.eqb_neq; destruct D; cbn [dz]; lia).
            apply N1. destruct D; cbn [dz]; lia. }
        intros [H1 H2]. now apply N.
  Qed.

  Lemma all_unreachable_ok s l : get_stats tab n m = Some s -> all_unreachable s l = Some true ->
    forall h, In h l -> unreached h.
  Proof.
    intros Es. induction l as [|a l IH]; cbn; intros E h; [intros []|].
    destruct (cannot_reach_halt s a) as [[|]|] eqn:Ea; try discriminate.
    intros [<-|I]; [eapply unreachable_ok; eassumption|auto].
  Qed.
  Lemma is_infinite_ok : is_infinite tab n m = Some true -> nonhalting T initial.
  Proof.
    unfold is_infinite. destruct (get_stats tab n m) as [s|] eqn:Es; [|discriminate]. intros E k.
    induction k as [|k IH]; [discriminate|]. rewrite steps_S. destruct (steps T k initial) as [c|] eqn:Ek; [|congruence].
    clear IH. pose proof (wf_reach _ _ Ek) as Wc. intros N.
    pose proof (wf_lookup n m tab _ _ W (proj1 Wc) (proj2 Wc (hd c))) as (row & t & E1 & E2 & _ & _ & C).
    pose proof (stats_facts s Es (st c) (tp c (hd c)) (proj1 Wc) (proj2 Wc _) t) as F.
    unfold simple_trans in F. cbn [fst snd] in F. rewrite E1 in F. specialize (F E2).
    unfold step, T, table_of in N. rewrite E1, E2 in N.
    destruct (t_cond t); try (exact C);
      try (eapply all_unreachable_ok in F; [|exact Es|exact E]; eapply F; [exact Ek|auto]).
    destruct C as (_ & _ & q & C & _). rewrite C in N. discriminate.
  Qed.

  (** no exception *)
  Lemma stats_total : exists s, get_stats tab n m = Some s /\ length (s_to_state s) = n /\ length (s_to_symbol s) = m /\
    forall h, In h (s_halts s) -> fst h < n /\ snd h < m.
  Proof.
    unfold get_stats. apply (ofold_total _ (fun a => fst a < n /\ snd a < m)
      (fun s => length (s_to_state s) = n /\ length (s_to_symbol s) = m /\ forall h, In h (s_halts s) -> fst h < n /\ snd h < m)).
    - intros s a (L1 & L2 & H) (A1 & A2). unfold stats_cell, simple_trans.
      destruct (wf_lookup n m tab _ _ W A1 A2) as (row & t & -> & -> & _ & _ & C).
      destruct (t_cond t); try (destruct C; fail).
      + destruct C as (_ & C1 & q & -> & C2).
        destruct (push_total (s_to_state s) q (a, t)) as (ts & E1); [lia|].
        destruct (push_total (s_to_symbol s) (t_sym t) (a, t)) as (ty & E2); [lia|]. unfold btrans, addr in *. cbn beta in *. rewrite E1, E2.
        eexists. split; [reflexivity|]. cbn. apply push_some in E1 as (_ & -> & _). apply push_some in E2 as (_ & -> & _). auto.
      + eexists. split; [reflexivity|]. cbn. split; [exact L1|]. split; [exact L2|].
        intros h I. apply in_app_or in I as [I|[<-|[]]]; auto.
      + eexists. split; [reflexivity|]. cbn. split; [exact L1|]. split; [exact L2|].
        intros h I. apply in_app_or in I as [I|[<-|[]]]; auto.
    - cbn. rewrite !repeat_length. split; [reflexivity|]. split; [reflexivity|]. intros h [].
    - intros [q x]. apply all_addrs_in.
  Qed.
  Lemma is_infinite_total : exists b, is_infinite tab n m = Some b.
  Proof.
    unfold is_infinite. destruct stats_total as (s & -> & L1 & L2 & H).
    induction (s_halts s) as [|[q x] l IH]; cbn [all_unreachable]; [eauto|].
    assert (X : exists b, cannot_reach_halt s (q, x) = Some b).
    { destruct (H (q, x)) as [H1 H2]; [now left|]. cbn in H1, H2. unfold cannot_reach_halt, same_direction.
      destruct (nth_error (s_to_state s) q) as [ts|] eqn:E1; [|apply nth_error_None in E1; lia].
      destruct (nth_error (s_to_symbol s) x) as [ty|] eqn:E2; [|apply nth_error_None in E2; lia].
      destruct ts as [|[? ?] ts]; cbn [length Nat.eqb andb negb].
      - destruct (Nat.eqb q 0), (Nat.eqb x 0); cbn; eauto.
      - destruct (Nat.eqb x 0); cbn [negb]; eauto. destruct (Nat.eqb (length ty) 0); eauto. }
    destruct X as ([|] & ->); [|eauto]. apply IH. intros h I. apply H. now right.
  Qed.
End Reverse.

(** ** Backtracking *)
Definition tuple_table (tt : tuples) : table := fun q s =>
  match tcell_at tt q s with
  | Some (w, d, SRun q') => Go w d q'
  | Some (w, d, SHalt) => Stop w d true
  | None => Stop 1 R false
  end.
Definition wf_tuples (n m : nat) (tt : tuples) : Prop :=
  0 < n /\ 0 < m /\ length tt = n /\ (forall row, In row tt -> length row = m) /\
  forall q s w d q', tcell_at tt q s = Some (w, d, SRun q') -> w < m /\ q' < n.

Section Backtrack.
  Variables (n m : nat) (tt : tuples).
  Hypothesis W : wf_tuples n m tt.
  Let T := tuple_table tt.

  Lemma tcell_some q s : q < n -> s < m -> exists c, tcell_at tt q s = Some c.
  Proof.
    intros Q X. destruct W as (_ & _ & L1 & L2 & _). unfold tcell_at.
    destruct (nth_error tt q) as [row|] eqn:E; [|apply nth_error_None in E; lia].
    destruct (nth_error row s) eqn:E2; [eauto|]. apply nth_error_None in E2.
    rewrite (L2 row) in E2; [lia|]. eapply nth_error_In, E.
  Qed.
  Lemma b_step c c' : step T c = Some c' -> exists w d,
    tcell_at tt (st c) (tp c (hd c)) = Some (w, d, SRun (st c')) /\
    hd c' = (hd c + dz d)%Z /\ tp c' = put (tp c) (hd c) w.
  Proof.
    unfold step, T, tuple_table. destruct (tcell_at tt (st c) (tp c (hd c))) as [[[w d] [q|]]|]; try discriminate.
    intros E. injection E as <-. exists w, d. auto.
  Qed.
  Lemma b_reach k c : steps T k initial = Some c -> st c < n /\ forall z, tp c z < m.
  Proof.
    apply (reach_inv T (fun c => st c < n /\ forall z, tp c z < m)).
    - destruct W as (W1 & W2 & _). split; [exact W1|intros z; exact W2].
    - intros _ a b _ [H1 H2] E. apply b_step in E as (w & d & E & _ & ->). destruct W as (_ & _ & _ & _ & C).
      apply C in E as [E1 E2]. split; [exact E2|]. intros z. unfold put. destruct (_ =? _)%Z; auto.
  Qed.

  (** what get_info collects *)
  Definition i_fact (a : addr) (i : info) : Prop :=
    forall w d s, tcell_at tt (fst a) (snd a) = Some (w, d, s) ->
    match s with
    | SHalt => In a (i_halts i)
    | SRun q => (exists ts, nth_error (i_to_state i) q = Some ts /\ In (a, (w, d, s)) ts) /\
                exists p, nth_error (i_sides i) w = Some p /\ side_get (opp d) p = true
    end.
  Definition i_inv (i : info) : Prop :=
    length (i_to_state i) = n /\ length (i_sides i) = m /\ nth_error (i_sides i) 0 = Some (true, true) /\
    (forall q ts a c, nth_error (i_to_state i) q = Some ts -> In (a, c) ts ->
       tcell_at tt (fst a) (snd a) = Some c /\ snd c = SRun q) /\
    (forall a, In a (i_halts i) -> exists w d, tcell_at tt (fst a) (snd a) = Some (w, d, SHalt)).

  Lemma side_set_get d d' p : side_get d' (side_set d p) = dir_eqb d d' || side_get d' p.
  Proof. destruct d, d', p; cbn; reflexivity. Qed.
  Lemma info_cell_ok i a i' : i_inv i -> info_cell tt i a = Some i' ->
    i_inv i' /\ i_fact a i' /\ forall x, i_fact x i -> i_fact x i'.
  Proof.
    intros (H1 & H2 & H3 & H4 & H5). unfold info_cell.
    destruct (tcell_at tt (fst a) (snd a)) as [[[w d] [q|]]|] eqn:Ec; [| |discriminate].
    - destruct (push (i_to_state i) q (a, (w, d, SRun q))) as [ts|] eqn:E1; [|discriminate].
      destruct (nth_error (i_sides i) w) as [p|] eqn:E2; [|discriminate]. intros E. injection E as <-.
      assert (Lw : (w <? length (i_sides i)) = true) by (apply Nat.ltb_lt, nth_error_Some; congruence).
      assert (K : forall x p', nth_error (i_sides i) x = Some p' -> exists p'',
                  nth_error (lset (i_sides i) w (side_set (opp d) p)) x = Some p'' /\
                  forall d', side_get d' p' = true -> side_get d' p'' = true).
      { intros x p' Ex. rewrite nth_error_lset, Lw, andb_true_r. destruct (Nat.eqb w x) eqn:Ew; [|eauto].
        apply Nat.eqb_eq in Ew. subst x. eexists. split; [reflexivity|]. intros d' G. rewrite side_set_get.
        assert (p' = p) as -> by congruence. now rewrite G, orb_true_r. }
      split; [|split].
      + split; [destruct (push_some _ _ _ _ E1) as (_ & X & _); exact (eq_trans X H1)|]. split; [cbn; now rewrite lset_length|]. split; [|split; [|exact H5]].
        * cbn [i_sides]. destruct (K 0 _ H3) as ([b1 b2] & -> & G). pose proof (G L eq_refl). pose proof (G R eq_refl). cbn in H, H0. now subst.
        * cbn. intros q' ts' b c En I. destruct (push_inv _ _ _ _ _ _ _ E1 En I) as [(-> & X)|(r & R1 & R2)].
          -- injection X as -> ->. auto.
          -- eapply H4; eassumption.
      + intros w' d' s' Ec'. assert (X : (w', d', s') = (w, d, SRun q)) by congruence. injection X as -> -> ->. cbn. split.
        * destruct (push_in _ _ _ _ E1) as (r & ? & ?). eauto.
        * eexists. split; [rewrite nth_error_lset, Lw, Nat.eqb_refl; reflexivity|]. now rewrite side_set_get, dir_eqb_refl.
      + intros x F w' d' s' Ex. specialize (F w' d' s' Ex). destruct s' as [q'|]; [|exact F]. cbn.
        destruct F as ((r & F1 & F2) & p' & F3 & F4). split.
        * destruct (push_keep _ _ _ _ _ _ _ E1 F1 F2) as (r' & ? & ?). eauto.
        * destruct (K _ _ F3) as (p'' & ? & ?). eauto.
    - intros E. injection E as <-. split; [|split].
      + split; [exact H1|]. split; [exact H2|]. split; [exact H3|]. split; [exact H4|]. cbn.
        intros b I. apply in_app_or in I as [I|[<-|[]]]; eauto.
      + intros w' d' s' Ec'. assert (X : (w', d', s') = (w, d, SHalt)) by congruence. injection X as -> -> ->.
        cbn. apply in_or_app. right. now left.
      + intros x F w' d' s' Ex. specialize (F w' d' s' Ex). destruct s' as [q'|]; [exact F|]. cbn. apply in_or_app. now left.
  Qed.
  Lemma info_init : i_inv (Info [] (repeat [] n) (lset (repeat (false, false) m) 0 (true, true))).
  Proof.
    destruct W as (W1 & W2 & _). split; [apply repeat_length|]. split; [cbn; now rewrite lset_length, repeat_length|].
    split; [|split].
    - cbn [i_sides]. rewrite nth_error_lset, repeat_length. apply Nat.ltb_lt in W2. now rewrite W2.
    - cbn. intros q ts a c E I. apply nth_error_In, repeat_spec in E. subst ts. destruct I.
    - intros a [].
  Qed.
  Lemma row0 : exists row rest, tt = row :: rest /\ length row = m.
  Proof.
    destruct W as (W1 & _ & L1 & L2 & _). destruct tt as [|row rest]; [cbn in L1; lia|].
    exists row, rest. split; [reflexivity|]. apply L2. now left.
  Qed.
  Lemma get_info_unfold : get_info tt =
    ofold (info_cell tt) (all_addrs n m) (Info [] (repeat [] n) (lset (repeat (false, false) m) 0 (true, true))).
  Proof.
    unfold get_info. destruct row0 as (row & rest & E & L0). destruct W as (W1 & W2 & L1 & _).
    rewrite <- L1. rewrite E at 1. rewrite L0. replace (Nat.eqb m 0) with false by (symmetry; apply Nat.eqb_neq; lia).
    now rewrite E.
  Qed.
  Lemma info_ok i : get_info tt = Some i -> i_inv i /\ forall q s, q < n -> s < m -> i_fact (q, s) i.
  Proof.
    rewrite get_info_unfold. intros E. apply (ofold_facts _ i_fact i_inv) in E; [|apply info_cell_ok|apply info_init].
    destruct E as (I & F & _). split; [exact I|]. intros q s Q S. apply F, all_addrs_in. auto.
  Qed.
  Lemma info_total : exists i, get_info tt = Some i.
  Proof.
    rewrite get_info_unfold.
    destruct (ofold_total (info_cell tt) (fun a => fst a < n /\ snd a < m) i_inv) with
      (l := all_addrs n m) (b := Info [] (repeat [] n) (lset (repeat (false, false) m) 0 (true, true))) as (i & E & _);
      [|apply info_init|intros [q s]; apply all_addrs_in|eauto].
    intros i a I (A1 & A2). pose proof I as (H1 & H2 & _).
    assert (X : exists i', info_cell tt i a = Some i').
    { unfold info_cell. destruct (tcell_some _ _ A1 A2) as ([[w d] [q|]] & E); rewrite E; [|eauto].
      destruct W as (_ & _ & _ & _ & C). apply C in E as [E1 E2].
      destruct (push_total (i_to_state i) q (a, (w, d, SRun q))) as (l' & ->); [lia|].
      destruct (nth_error (i_sides i) w) eqn:En; [eauto|]. apply nth_error_None in En. lia. }
    destruct X as (i' & E). exists i'. split; [exact E|]. eapply info_cell_ok; eassumption.
  Qed.

  (** *** partial configurations *)
  Definition pmatch (p : pconfig) (c : config) : Prop :=
    p_st p = st c /\ p_cur p = tp c (hd c) /\
    forall d i x, nth_error (p_side d p) i = Some x -> tp c (hd c + dz d * (1 + Z.of_nat i))%Z = x.

  Variable inf : info.
  Hypothesis INF : get_info tt = Some inf.

  (** the symbols beside the head of a reachable configuration *)
  Definition sides_ok (c : config) : Prop :=
    forall d z, (0 < dz d * (z - hd c))%Z -> exists p, nth_error (i_sides inf) (tp c z) = Some p /\ side_get d p = true.
  Lemma sides_reach k c : steps T k initial = Some c -> sides_ok c.
  Proof.
    destruct (info_ok _ INF) as ((_ & _ & H0 & _) & F). apply reach_inv.
    - intros d z _. exists (true, true). split; [exact H0|]. now destruct d.
    - intros j a b Ej S E. destruct (b_reach _ _ Ej) as [Q X]. apply b_step in E as (w & d & E & Eh & Et).
      pose proof (F (st a) (tp a (hd a)) Q (X _) w d _ E) as (_ & p & P1 & P2).
      intros d' z Hz. rewrite Et. unfold put. destruct (z =? hd a)%Z eqn:Ez.
      + apply Z.eqb_eq in Ez. subst z. exists p. split; [exact P1|]. rewrite Eh in Hz. destruct d, d'; cbn [dz opp] in *; try lia; exact P2.
      + apply Z.eqb_neq in Ez. apply S. rewrite Eh in Hz. destruct d, d'; cbn [dz] in *; lia.
  Qed.
  Lemma possible_ok p c : pmatch p c -> sides_ok c -> is_possible_config p (i_sides inf) = Some true.
  Proof.
    intros (_ & _ & P) S.
    assert (X : forall d l, (forall i x, nth_error l i = Some x -> exists j, nth_error (p_side d p) j = Some x) ->
                side_possible (i_sides inf) d l = Some true).
    { intros d. induction l as [|x l IH]; intros H; [reflexivity|]. cbn.
      destruct (H 0 x eq_refl) as (j & Ej). apply P in Ej. destruct (S d (hd c + dz d * (1 + Z.of_nat j))%Z) as (q & E1 & E2).
      { destruct d; cbn [dz]; lia. }
      rewrite Ej in E1. rewrite E1, E2. apply IH. intros i y Ei. apply (H (Datatypes.S i) y Ei). }
    unfold is_possible_config. rewrite (X L (p_l p)); [apply (X R (p_r p))|]; intros i x E; exists i; exact E.
  Qed.
  Lemma init_match p : is_init_config p = true <-> pmatch p initial.
  Proof.
    unfold is_init_config. rewrite !andb_true_iff, !Nat.eqb_eq. split.
    - intros [[[C S] L1] R1]. split; [exact S|]. split; [exact C|]. rewrite forallb_forall in L1, R1. intros d i x E. cbn.
      apply nth_error_In in E. destruct d; [apply L1 in E|apply R1 in E]; now apply Nat.eqb_eq in E.
    - intros (S & C & P). split; [split; [split; [exact C|exact S]|]|]; apply forallb_forall; intros x I;
        apply In_nth_error in I as (i & E); [apply (P L) in E|apply (P R) in E]; cbn in E; now apply Nat.eqb_eq.
  Qed.

  (** backwards *)
  Lemma back_step p c c' k : pmatch p c' -> steps T k initial = Some c -> step T c = Some c' -> exists a cell ts,
    nth_error (i_to_state inf) (p_st p) = Some ts /\ In (a, cell) ts /\ applies p cell = true /\ pmatch (apply_trans p a cell) c.
  Proof.
    intros (P1 & P2 & P3) Ek E. destruct (b_reach _ _ Ek) as [Q X]. apply b_step in E as (w & d & E & Eh & Et).
    destruct (info_ok _ INF) as (_ & F). destruct (F (st c) (tp c (hd c)) Q (X _) w d _ E) as ((ts & T1 & T2) & _).
    exists (st c, tp c (hd c)), (w, d, SRun (st c')), ts. rewrite P1. split; [exact T1|]. split; [exact T2|].
    assert (B : forall d' z, z = (hd c + dz d')%Z -> d' = d -> tp c' z = tp c z).
    { intros d' z -> ->. rewrite Et. apply put_other. destruct d; cbn; lia. }
    split.
    - cbn. destruct (p_side (opp d) p) as [|x l] eqn:Es; [reflexivity|]. apply Nat.eqb_eq.
      assert (Y : nth_error (p_side (opp d) p) 0 = Some x) by (rewrite Es; reflexivity). apply P3 in Y. rewrite <- Y, Eh, Et.
      replace (hd c + dz d + dz (opp d) * (1 + Z.of_nat 0))%Z with (hd c) by (destruct d; cbn; lia). apply put_same.
    - assert (G : forall d' j z, tp c' (hd c' + dz d' * (1 + Z.of_nat j))%Z = z ->
                 (d' = d \/ (d' = opp d /\ 0 < j)) -> tp c (hd c' + dz d' * (1 + Z.of_nat j))%Z = z).
      { intros d' j z <- H. rewrite Et. symmetry. apply put_other. rewrite Eh. destruct d, d'; cbn [dz opp] in *; try lia;
          destruct H as [H|[H ?]]; try discriminate; lia. }
      assert (TL : forall (l : list nat) i x, nth_error (tl l) i = Some x -> nth_error l (S i) = Some x).
      { intros [|y l] i x E'; [destruct i; discriminate|exact E']. }
      unfold apply_trans. destruct d; (split; [reflexivity|split; [reflexivity|]]); cbn [p_st p_cur p_l p_r fst snd];
        intros d' i x En; destruct d'; cbn [p_side p_l p_r] in En.
      + destruct i as [|i]; cbn in En.
        * injection En as <-. rewrite P2, Eh. symmetry. apply (B L); [cbn; lia|reflexivity].
        * rewrite <- (G L i x); [f_equal; rewrite Eh; cbn [dz]; lia|apply (P3 L i x En)|now left].
      + apply TL in En. rewrite <- (G R (S i) x); [f_equal; rewrite Eh; cbn [dz]; lia|apply (P3 R (S i) x En)|right; split; [reflexivity|lia]].
      + apply TL in En. rewrite <- (G L (S i) x); [f_equal; rewrite Eh; cbn [dz]; lia|apply (P3 L (S i) x En)|right; split; [reflexivity|lia]].
      + destruct i as [|i]; cbn in En.
        * injection En as <-. rewrite P2, Eh. symmetry. apply (B R); [cbn; lia|reflexivity].
        * rewrite <- (G R i x); [f_equal; rewrite Eh; cbn [dz]; lia|apply (P3 R i x En)|now left].
  Qed.
  (** forwards *)
  Lemma forth_step p a cell ts c : nth_error (i_to_state inf) (p_st p) = Some ts -> In (a, cell) ts -> applies p cell = true ->
    pmatch (apply_trans p a cell) c -> exists c', step T c = Some c' /\ pmatch p c'.
  Proof.
    intros E1 I A. destruct (info_ok _ INF) as ((_ & _ & _ & H & _) & _). destruct (H _ _ _ _ E1 I) as [Ec Es].
    destruct cell as [[w d] s]. cbn in Es. subst s. destruct a as [q x]. cbn [fst snd] in Ec.
    intros (M1 & M2 & M3). 
    assert (Eq : st c = q) by (destruct d; cbn in M1; congruence).
    assert (Ex : tp c (hd c) = x) by (destruct d; cbn in M2; congruence).
    unfold step, T, tuple_table. rewrite Eq, Ex, Ec. eexists. split; [reflexivity|].
    assert (AP : forall i y, nth_error (p_side (opp d) p) i = Some y ->
       put (tp c) (hd c) w (hd c + dz d + dz (opp d) * (1 + Z.of_nat i))%Z = y).
    { intros i y En. destruct i as [|i].
      - replace (hd c + dz d + dz (opp d) * (1 + Z.of_nat 0))%Z with (hd c) by (destruct d; cbn; lia). rewrite put_same.
        unfold applies in A. destruct (p_side (opp d) p) as [|z l]; [discriminate|]. apply Nat.eqb_eq in A. cbn in En. congruence.
      - rewrite put_other by (destruct d; cbn [dz opp]; lia).
        rewrite <- (M3 (opp d) i y); [f_equal; destruct d; cbn [dz opp]; lia|].
        destruct d; cbn [opp p_side apply_trans p_l p_r] in *; [destruct (p_r p)|destruct (p_l p)]; try discriminate; exact En. }
    assert (FR : forall i y, nth_error (p_cur p :: p_side d p) i = Some y ->
       put (tp c) (hd c) w (hd c + dz d + dz d * Z.of_nat i)%Z = y).
    { intros i y En. rewrite put_other by (destruct d; cbn [dz]; lia). 
      rewrite <- (M3 d i y); [f_equal; destruct d; cbn [dz]; lia|]. destruct d; exact En. }
    split; [reflexivity|]. cbn [st hd tp]. split.
    - symmetry. rewrite <- (FR 0 (p_cur p) eq_refl). f_equal. destruct d; cbn; lia.
    - intros d' i y En. destruct (dir_eqb d' d) eqn:Ed.
      + apply dir_eqb_eq in Ed. subst d'. rewrite <- (FR (S i) y En). f_equal. destruct d; cbn [dz]; lia.
      + assert (d' = opp d) as -> by (destruct d, d'; cbn in *; congruence). now apply AP.
  Qed.

  (** *** the search *)
  Definition pred (p p' : pconfig) : Prop := exists a cell ts,
    nth_error (i_to_state inf) (p_st p) = Some ts /\ In (a, cell) ts /\ applies p cell = true /\ p' = apply_trans p a cell.

  Lemma scan_trans_ok p l : forall prev nodes r, scan_trans (i_sides inf) p l prev nodes = Some r ->
    match r with
    | Found _ => exists a cell, In (a, cell) l /\ applies p cell = true /\ is_init_config (apply_trans p a cell) = true
    | Prev cs _ =>
      incl prev cs /\
      (forall a cell, In (a, cell) l -> applies p cell = true -> is_init_config (apply_trans p a cell) = false /\
         (is_possible_config (apply_trans p a cell) (i_sides inf) = Some true -> In (apply_trans p a cell) cs)) /\
      (forall p', In p' cs -> In p' prev \/ exists a cell, In (a, cell) l /\ applies p cell = true /\ p' = apply_trans p a cell)
    end.
  Proof.
    induction l as [|[a cell] l IH]; intros prev nodes r; cbn [scan_trans].
    - intros E. injection E as <-. split; [apply incl_refl|]. split; [intros ? ? []|auto].
    - destruct (applies p cell) eqn:Ea.
      + destruct (is_init_config (apply_trans p a cell)) eqn:Ei.
        * intros E. injection E as <-. exists a, cell. split; [now left|auto].
        * destruct (is_possible_config (apply_trans p a cell) (i_sides inf)) as [b|] eqn:Ep; [|discriminate].
          intros E. apply IH in E. destruct r as [k|cs k].
          -- destruct E as (a' & c' & E1 & E2). exists a', c'. split; [now right|exact E2].
          -- destruct E as (E1 & E2 & E3). split; [|split].
             ++ intros y Y. apply E1. destruct b; [apply in_or_app; now left|exact Y].
             ++ intros a' c' [Q|I] A; [|auto]. injection Q as <- <-. split; [exact Ei|].
                intros P. assert (b = true) as -> by congruence. apply E1. apply in_or_app. right. now left.
             ++ intros p' I. destruct (E3 p' I) as [H|(a' & c' & H1 & H2)].
                ** destruct b; [|now left]. apply in_app_or in H as [H|[<-|[]]]; [now left|].
                   right. exists a, cell. split; [now left|auto].
                ** right. exists a', c'. split; [now right|exact H2].
      + intros E. apply IH in E. destruct r as [k|cs k].
        * destruct E as (a' & c' & E1 & E2). exists a', c'. split; [now right|exact E2].
        * destruct E as (E1 & E2 & E3). split; [exact E1|]. split.
          -- intros a' c' [Q|I] A; [|auto]. injection Q as <- <-. congruence.
          -- intros p' I. destruct (E3 p' I) as [H|(a' & c' & H1 & H2)]; [now left|]. right. exists a', c'. split; [now right|exact H2].
  Qed.
  Lemma scan_configs_ok l : forall prev nodes r, scan_configs inf l prev nodes = Some r ->
    match r with
    | Found _ => exists p p', In p l /\ pred p p' /\ is_init_config p' = true
    | Prev cs _ =>
      incl prev cs /\
      (forall p p', In p l -> pred p p' -> is_init_config p' = false /\
         (is_possible_config p' (i_sides inf) = Some true -> In p' cs)) /\
      (forall p', In p' cs -> In p' prev \/ exists p, In p l /\ pred p p')
    end.
  Proof.
    induction l as [|p l IH]; intros prev nodes r; cbn [scan_configs].
    - intros E. injection E as <-. split; [apply incl_refl|]. split; [intros ? ? []|auto].
    - destruct (nth_error (i_to_state inf) (p_st p)) as [ts|] eqn:Et; [|discriminate].
      destruct (scan_trans (i_sides inf) p ts prev (S nodes)) as [[k|cs k]|] eqn:Es; [| |discriminate].
      + intros E. injection E as <-. apply scan_trans_ok in Es as (a & cell & H1 & H2 & H3).
        exists p, (apply_trans p a cell). split; [now left|]. split; [|exact H3]. exists a, cell, ts. auto.
      + apply scan_trans_ok in Es as (A1 & A2 & A3). intros E. apply IH in E. destruct r as [k'|cs' k'].
        * destruct E as (x & x' & X1 & X2). exists x, x'. split; [now right|exact X2].
        * destruct E as (E1 & E2 & E3). split; [eapply incl_tran; eassumption|]. split.
          -- intros x x' [<-|I] P; [|eauto]. destruct P as (a & cell & ts' & P1 & P2 & P3 & ->).
             assert (ts' = ts) as -> by congruence. destruct (A2 a cell P2 P3) as [B1 B2]. split; [exact B1|]. intros X. apply E1, B2, X.
          -- intros x' I. destruct (E3 x' I) as [H|(x & H1 & H2)].
             ++ destruct (A3 x' H) as [H'|(a & cell & H1 & H2 & ->)]; [now left|]. right. exists p. split; [now left|].
                exists a, cell, ts. auto.
             ++ right. exists x. split; [now right|exact H2].
  Qed.

  Definition leads (h : addr) (j : nat) (p : pconfig) : Prop :=
    forall c, pmatch p c -> exists c', steps T j c = Some c' /\ st c' = fst h /\ tp c' (hd c') = snd h.
  Lemma pred_leads h j p p' : leads h j p -> pred p p' -> leads h (S j) p'.
  Proof.
    intros H (a & cell & ts & P1 & P2 & P3 & ->) c Mc. destruct (forth_step _ _ _ _ _ P1 P2 P3 Mc) as (c1 & E1 & M1).
    destruct (H c1 M1) as (c' & E & X). exists c'. split; [|exact X]. cbn. now rewrite E1.
  Qed.

  Lemma back_loop_ok h mw turns : forall i pos width nodes r, (forall p, In p pos -> leads h i p) ->
    back_loop inf mw turns i pos width nodes = Some r ->
    (b_success r = true -> forall t c p, steps T (S t) initial = Some c -> In p pos -> pmatch p c -> False) /\
    (b_halted r = true -> b_success r = false /\
       exists c, steps T (b_steps r) initial = Some c /\ st c = fst h /\ tp c (hd c) = snd h).
  Proof.
    induction turns as [|turns IH]; intros i pos width nodes r LD; cbn [back_loop].
    - intros E. injection E as <-. cbn. split; discriminate.
    - destruct (scan_configs inf pos [] nodes) as [[k|cs k]|] eqn:Es; [| |discriminate].
      + intros E. injection E as <-. cbn. split; [discriminate|]. intros _. split; [reflexivity|].
        apply scan_configs_ok in Es as (p & p' & H1 & H2 & H3).
        apply (pred_leads h i p p' (LD p H1) H2). now apply init_match.
      + apply scan_configs_ok in Es as (_ & A2 & A3).
        assert (ST : forall t c p, steps T (S t) initial = Some c -> In p pos -> pmatch p c ->
                     exists t' c' p', t = S t' /\ steps T t initial = Some c' /\ In p' cs /\ pmatch p' c').
        { intros t c p Et I Mc. rewrite steps_S in Et. destruct (steps T t initial) as [c1|] eqn:E1; [|discriminate].
          destruct (back_step p c1 c t Mc E1 Et) as (a & cell & ts & B1 & B2 & B3 & B4).
          destruct (A2 p (apply_trans p a cell) I) as [N1 N2]; [exists a, cell, ts; auto|].
          destruct t as [|t'].
          - cbn in E1. injection E1 as <-. apply init_match in B4. congruence.
          - exists t', c1, (apply_trans p a cell). split; [reflexivity|]. split; [reflexivity|]. split; [|exact B4].
            apply N2. eapply possible_ok; [exact B4|]. eapply sides_reach, E1. }
        destruct (Nat.eqb (length cs) 0) eqn:E0.
        { intros E. injection E as <-. cbn. split; [|discriminate]. intros _ t c p Et I Mc.
          destruct (ST t c p Et I Mc) as (_ & _ & p' & _ & _ & I' & _). destruct cs; [destruct I'|discriminate]. }
        destruct (Nat.ltb mw _); [intros E; injection E as <-; cbn; split; discriminate|].
        intros E. apply IH in E.
        * destruct E as [H1 H2]. split; [|exact H2]. intros S t c p Et I Mc.
          destruct (ST t c p Et I Mc) as (t' & c' & p' & -> & E' & I' & M'). apply (H1 S t' c' p' E' I' M').
        * intros p' I. destruct (A3 p' I) as [[]|(p & P1 & P2)]. eapply pred_leads; eauto.
  Qed.

  Lemma single_ok h steps_ mw r : backtrack_single_halt inf h steps_ mw = Some r ->
    (b_success r = true -> forall t c, steps T (S t) initial = Some c -> ~ (st c = fst h /\ tp c (hd c) = snd h)) /\
    (b_halted r = true -> b_success r = false /\
       exists c, steps T (b_steps r) initial = Some c /\ st c = fst h /\ tp c (hd c) = snd h).
  Proof.
    unfold backtrack_single_halt. destruct steps_ as [|s]; [discriminate|]. intros E.
    assert (LD : forall p, In p [PC [] [] (snd h) (fst h)] -> leads h 0 p).
    { intros p [<-|[]] c (P1 & P2 & _). cbn in P1, P2. exists c. cbn. auto. }
    destruct (back_loop_ok h mw (S s) 0 _ 1 0 r LD E) as [H1 H2].
    split; [|exact H2]. intros S1 t c Et [Q1 Q2]. apply (H1 S1 t c _ Et (or_introl eq_refl)).
    split; [now symmetry|]. split; [now symmetry|]. intros d i x En. destruct d, i; discriminate.
  Qed.

  Lemma back_halts_ok steps_ mw halts : forall comb o,
    (forall r, comb = Some r -> b_success r = true /\ b_halted r = false) ->
    back_halts tt inf steps_ mw halts comb = Some o ->
    (match o with Some r => b_success r = true | None => True end ->
      forall h, In h halts -> exists r, backtrack_single_halt inf h steps_ mw = Some r /\ b_success r = true) /\
    (forall r, o = Some r -> b_halted r = true -> b_success r = false /\
      exists h c, In h halts /\ steps T (b_steps r) initial = Some c /\ st c = fst h /\ tp c (hd c) = snd h).
  Proof.
    induction halts as [|h halts IH]; intros comb o HC; cbn [back_halts].
    - intros E. injection E as <-. split; [intros _ ? []|]. intros r -> H. destruct (HC r eq_refl). congruence.
    - destruct (nth_error tt (fst h)) as [row|]; [|discriminate].
      destruct (existsb _ row).
      { intros E. injection E as <-. split; [discriminate|]. intros r Q. injection Q as <-. discriminate. }
      destruct (backtrack_single_halt inf h steps_ mw) as [r1|] eqn:E1; [|discriminate].
      destruct (single_ok _ _ _ _ E1) as [_ HH].
      destruct (b_success r1) eqn:S1; cbn [negb].
      + intros E. destruct (IH (Some match comb with Some c => merge c r1 | None => r1 end) o) as [H1 H2]; [|exact E|].
        { intros r Q. injection Q as <-.
          assert (HF : b_halted r1 = false) by (destruct (b_halted r1); [destruct HH as [? _]; [reflexivity|congruence]|reflexivity]).
          destruct comb as [c|]; [|auto]. destruct (HC c eq_refl) as [A B]. cbn. now rewrite A, B, S1, HF. }
        split.
        * intros S h' [<-|I]; [exists r1; auto|auto].
        * intros r Q H. destruct (H2 r Q H) as (A & h' & c & B1 & B2). split; [exact A|]. exists h', c. split; [now right|exact B2].
      + intros E. injection E as <-. split; [intros Q; congruence|]. intros r Q H. injection Q as <-.
        destruct (HH H) as (A & c & B). split; [exact S1|]. exists h, c. split; [now left|exact B].
  Qed.
End Backtrack.

(** *** no exception *)
Section BacktrackTotal.
  Variables (n m : nat) (tt : tuples).
  Hypothesis W : wf_tuples n m tt.
  Variable inf : info.
  Hypothesis INF : get_info tt = Some inf.
  Definition p_valid (p : pconfig) : Prop :=
    p_st p < n /\ p_cur p < m /\ (forall x, In x (p_l p) -> x < m) /\ forall x, In x (p_r p) -> x < m.
  Lemma tcell_range q s c : tcell_at tt q s = Some c -> q < n /\ s < m.
  Proof.
    unfold tcell_at. destruct W as (_ & _ & L1 & L2 & _). destruct (nth_error tt q) as [row|] eqn:E; [|discriminate].
    intros E2. split; [rewrite <- L1; apply nth_error_Some; congruence|].
    rewrite <- (L2 row); [apply nth_error_Some; congruence|]. eapply nth_error_In, E.
  Qed.
  Lemma side_possible_total d l : (forall x, In x l -> x < m) -> exists b, side_possible (i_sides inf) d l = Some b.
  Proof.
    destruct (info_ok n m tt W inf INF) as ((_ & L1 & _) & _).
    induction l as [|x l IH]; intros H; cbn; [eauto|].
    destruct (nth_error (i_sides inf) x) as [p|] eqn:E; [|apply nth_error_None in E; specialize (H x (or_introl eq_refl)); lia].
    destruct (side_get d p); [|eauto]. apply IH. intros y Y. apply H. now right.
  Qed.
  Lemma apply_valid p a cell : p_valid p -> fst a < n -> snd a < m -> p_valid (apply_trans p a cell).
  Proof.
    intros (P1 & P2 & P3 & P4) A1 A2. destruct cell as [[w d] s]. unfold apply_trans.
    assert (TL : forall l : list nat, (forall x, In x l -> x < m) -> forall x, In x (tl l) -> x < m).
    { intros [|y l] H x I; [destruct I|]. apply H. now right. }
    destruct d; (split; [exact A1|split; [exact A2|]]); cbn [p_l p_r]; split; try (now apply TL); intros x [<-|I]; auto.
  Qed.
  Lemma scan_trans_total p l : p_valid p -> (forall a c, In (a, c) l -> fst a < n /\ snd a < m) ->
    forall prev nodes, (forall q, In q prev -> p_valid q) ->
    exists r, scan_trans (i_sides inf) p l prev nodes = Some r /\
      match r with Prev cs _ => forall q, In q cs -> p_valid q | Found _ => True end.
  Proof.
    intros Vp. induction l as [|[a cell] l IH]; intros HL prev nodes VP; cbn [scan_trans]; [eauto|].
    assert (HL' : forall a c, In (a, c) l -> fst a < n /\ snd a < m) by (intros; apply (HL a0 c); now right).
    destruct (applies p cell); [|auto]. destruct (is_init_config _); [eexists; split; [reflexivity|exact I]|].
    destruct (HL a cell (or_introl eq_refl)) as [A1 A2]. pose proof (apply_valid p a cell Vp A1 A2) as V'.
    assert (X : exists b, is_possible_config (apply_trans p a cell) (i_sides inf) = Some b).
    { unfold is_possible_config. destruct V' as (_ & _ & V1 & V2). destruct (side_possible_total L _ V1) as ([|] & ->); [|eauto].
      apply side_possible_total, V2. }
    destruct X as (b & ->). apply IH; [exact HL'|]. intros q Q. destruct b; [|auto]. apply in_app_or in Q as [Q|[<-|[]]]; auto.
  Qed.
  Lemma scan_configs_total l : (forall p, In p l -> p_valid p) -> forall prev nodes, (forall q, In q prev -> p_valid q) ->
    exists r, scan_configs inf l prev nodes = Some r /\ match r with Prev cs _ => forall q, In q cs -> p_valid q | Found _ => True end.
  Proof.
    destruct (info_ok n m tt W inf INF) as ((L1 & _ & _ & HT & _) & _).
    induction l as [|p l IH]; intros HL prev nodes VP; cbn [scan_configs]; [eauto|].
    assert (Vp : p_valid p) by (apply HL; now left).
    destruct (nth_error (i_to_state inf) (p_st p)) as [ts|] eqn:Et; [|apply nth_error_None in Et; destruct Vp; lia].
    destruct (scan_trans_total p ts Vp) with (prev := prev) (nodes := S nodes) as (r & -> & V); [|exact VP|].
    { intros a c I. destruct (HT _ _ _ _ Et I) as [E _]. eapply tcell_range, E. }
    destruct r as [k|cs k]; [eexists; split; [reflexivity|exact I]|]. apply IH; [|exact V]. intros q Q. apply HL. now right.
  Qed.
  Lemma back_loop_total mw turns : forall i pos width nodes, (forall p, In p pos -> p_valid p) ->
    exists r, back_loop inf mw turns i pos width nodes = Some r.
  Proof.
    induction turns as [|turns IH]; intros i pos width nodes V; cbn [back_loop]; [eauto|].
    destruct (scan_configs_total pos V [] nodes) as ([k|cs k] & -> & V'); [intros ? []|eauto|].
    destruct (Nat.eqb _ _); [eauto|]. destruct (Nat.ltb _ _); [eauto|]. apply IH, V'.
  Qed.
  Lemma back_halts_total s mw halts : (0 < s)%nat -> (forall h, In h halts -> fst h < n /\ snd h < m) -> forall comb,
    exists o, back_halts tt inf s mw halts comb = Some o.
  Proof.
    intros S0. induction halts as [|h halts IH]; intros HH comb; cbn [back_halts]; [eauto|].
    destruct (HH h (or_introl eq_refl)) as [H1 H2]. pose proof W as (_ & _ & L1 & _).
    destruct (nth_error tt (fst h)) as [row|] eqn:E; [|apply nth_error_None in E; lia].
    destruct (existsb _ row); [eauto|]. unfold backtrack_single_halt. destruct s as [|s]; [lia|].
    destruct (back_loop_total mw (S s) 0 [PC [] [] (snd h) (fst h)] 1 0) as (r & ->).
    { intros p [<-|[]]. split; [exact H1|]. split; [exact H2|]. split; intros ? []. }
    destruct (negb _); [eauto|]. apply IH. intros h' I. apply HH. now right.
  Qed.
End BacktrackTotal.
