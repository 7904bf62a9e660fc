(** * [sim_limited] on a simple machine, measured against the reference semantics *)
Require Import ZArith List Lia Bool Arith.
From Verif Require Import Spec_TM M_Turing_Machine P_Stream P_SimLimited P_Macro P_Repeat.
Import ListNotations.
Open Scope Z_scope.

(** ** Specification vocabulary: the window [o, o+k) of the tape of [c] *)
Definition in_window (o : Z) (k : nat) (c : config) : Prop := o <= hd c < o + Z.of_nat k.
Definition shows (o : Z) (tape : list nat) (t : Z -> nat) : Prop :=
  forall i a, nth_error tape i = Some a -> t (o + Z.of_nat i) = a.
Definition same_outside (o : Z) (k : nat) (t t' : Z -> nat) : Prop :=
  forall z, z < o \/ o + Z.of_nat k <= z -> t' z = t z.
(** every configuration of the run before step [n] has its head in the window *)
Definition stays (T : table) (c : config) (o : Z) (k n : nat) : Prop :=
  forall i ci, (i < n)%nat -> steps T i c = Some ci -> in_window o k ci.

(** ** How a window simulation ends, for any machine whose moves count one step *)
Lemma sim_loop_end {Sym St} (M : machine Sym St)
  (Seq : forall a b, m_sym_eqb M a b = true <-> a = b)
  (Teq : forall a b, m_st_eqb M a b = true <-> a = b)
  (One : forall a s d t, m_trans M a s d = Some t -> t_steps t = 1%nat) max :
  forall fuel w n j seen old next t,
  (fuel + j = S max)%nat ->
  sim_loop M max fuel w n j seen old next = Some t ->
  exists i w' sym tr,
    wrun M i w = Some w' /\ tget (w_tape w') (w_pos w') = Some sym /\
    m_trans M sym (w_state w') (w_dir w') = Some tr /\
    t_sym t = lset (w_tape w') (Z.to_nat (w_pos w')) (t_sym tr) /\
    t_state t = t_state tr /\ t_dir t = t_dir tr /\ t_steps t = (n + S i)%nat /\
    let wn := WCfg (t_state tr) (t_dir tr) (w_pos w' + dz (t_dir tr)) (t_sym t) in
    ((t_cond t = INF_REPEAT /\
      (old = Some wn \/ exists s, (0 < s <= i)%nat /\ wrun M s w = Some wn)) \/
     (t_cond t = GAVE_UP /\ (i + j = max)%nat) \/
     (t_cond t = t_cond tr /\ t_cond tr <> RUNNING /\ exists p, t_details t = t_details tr ++ [p]) \/
     (t_cond t = RUNNING /\ t_cond tr = RUNNING /\
      ~ (0 <= w_pos wn < Z.of_nat (length (w_tape wn))))).
Proof.
  induction fuel as [|fuel IH]; simpl; [discriminate|].
  intros w n j seen old next t Hf E.
  destruct (tget (w_tape w) (w_pos w)) as [symbol|] eqn:Eg; [|discriminate].
  destruct (m_trans M symbol (w_state w) (w_dir w)) as [tr|] eqn:Et; [|discriminate].
  pose proof (One _ _ _ _ Et) as H1.
  set (w1 := WCfg (t_state tr) (t_dir tr) (w_pos w + dz (t_dir tr))
                  (lset (w_tape w) (Z.to_nat (w_pos w)) (t_sym tr))) in *.
  match type of E with (if ?x then _ else _) = _ => destruct x eqn:Eold end.
  { injection E as <-. exists O, w, symbol, tr. simpl.
    repeat split; auto; try lia. left. split; auto. left.
    destruct old as [o|]; [|discriminate].
    apply (weqb_eq M Seq Teq) in Eold. now rewrite <- Eold. }
  destruct (Nat.ltb max (S j)) eqn:Em.
  { apply Nat.ltb_lt in Em. injection E as <-. exists O, w, symbol, tr. simpl.
    repeat split; auto; try lia. right. left. split; auto; lia. }
  apply Nat.ltb_ge in Em.
  destruct (cond_eqb (t_cond tr) RUNNING) eqn:Ec; simpl in E.
  2:{ injection E as <-. exists O, w, symbol, tr. simpl.
      repeat split; auto; try lia. right. right. left. split; auto. split; [|eauto].
      intros X. rewrite X in Ec. discriminate. }
  assert (Ec' : t_cond tr = RUNNING) by (destruct (t_cond tr); simpl in Ec; congruence).
  match type of E with (if negb ?x then _ else _) = _ => destruct x eqn:Ep end; simpl in E.
  2:{ injection E as <-. exists O, w, symbol, tr. simpl.
      repeat split; auto; try lia. right. right. right. split; auto. split; auto.
      intros [A B]. apply Z.leb_le in A. apply Z.ltb_lt in B. rewrite A, B in Ep. discriminate. }
  assert (Ew : wnext M w = Some w1).
  { unfold wnext. rewrite Eg, Et. cbn [w_pos w_tape]. now rewrite Ec, Ep. }
  apply IH in E; [|lia]. destruct E
    as (i & w' & sym & tr' & A1 & A2 & A3 & A4 & A5 & A6 & A7 & A8).
  exists (S i), w', sym, tr'. simpl. rewrite Ew. repeat split; auto; try lia.
  simpl in A8. destruct A8 as [(B1 & B2)|[(B1 & B2)|[B|B]]].
  - left. split; auto. destruct B2 as [B2|(s & Hs & B2)].
    + destruct (Nat.leb next (S j)).
      * right. exists 1%nat. split; [lia|]. simpl. rewrite Ew. exact B2.
      * left. exact B2.
    + right. exists (S s). split; [lia|]. simpl. rewrite Ew. exact B2.
  - right. left. split; auto. lia.
  - right. right. left. exact B.
  - right. right. right. exact B.
Qed.

Section Window.
  Context (n m : nat) (tab : ttable) (W : wf_ttable n m tab).
  Let T := table_of tab.
  Let M := simple_machine tab.

  Lemma simple_one a s d t :
    m_trans M a s d = Some t -> t_steps t = 1%nat.
  Proof.
    unfold M; simpl. unfold simple_trans. intros E.
    destruct W as (_ & _ & _ & _ & Hc).
    destruct s as [q|].
    - destruct (nth_error tab q) as [row|] eqn:Er; [|discriminate].
      now destruct (Hc _ _ _ _ Er E) as (H & _).
    - destruct (rev tab) as [|row rs] eqn:Er; [discriminate|].
      assert (In row tab) by (apply in_rev; rewrite Er; now left).
      apply In_nth_error in H. destruct H as (i & Hi).
      now destruct (Hc _ _ _ _ Hi E) as (H & _).
  Qed.

  Lemma M_sym_eq a b : m_sym_eqb M a b = true <-> a = b.
  Proof. apply (ms_sym_eq _ _ _ _ _ (simple_msound True n m tab W)). Qed.
  Lemma M_st_eq a b : m_st_eqb M a b = true <-> a = b.
  Proof. apply (ms_st_eq _ _ _ _ _ (simple_msound True n m tab W)). Qed.

  Context (o : Z) (k : nat) (c0 : config).

  Definition wrel (w : wcfg nat sstate) (c : config) : Prop :=
    w_state w = SRun (st c) /\ (st c < n)%nat /\ hd c = o + w_pos w /\
    0 <= w_pos w < Z.of_nat k /\ length (w_tape w) = k /\
    (forall a, In a (w_tape w) -> (a < m)%nat) /\
    shows o (w_tape w) (tp c) /\ same_outside o k (tp c0) (tp c).

  (** facts about the transition out of a related configuration *)
  Lemma wrel_trans w c :
    wrel w c ->
    exists tr, tget (w_tape w) (w_pos w) = Some (tp c (hd c)) /\
      m_trans M (tp c (hd c)) (w_state w) (w_dir w) = Some tr /\
      cell_ok n m (st c) (tp c (hd c)) tr /\
      T (st c) (tp c (hd c)) =
        match t_cond tr, t_state tr with
        | RUNNING, SRun q' => Go (t_sym tr) (t_dir tr) q'
        | HALT, _ => Stop (t_sym tr) (t_dir tr) true
        | _, _ => Stop (t_sym tr) (t_dir tr) false
        end.
  Proof.
    intros (H1 & H2 & H3 & H4 & H5 & H6 & H7 & H8).
    assert (E : tget (w_tape w) (w_pos w) = Some (tp c (hd c))).
    { unfold tget. replace (w_pos w <? 0) with false by (symmetry; apply Z.ltb_ge; lia).
      destruct (nth_error (w_tape w) (Z.to_nat (w_pos w))) as [a|] eqn:E.
      - apply H7 in E. rewrite Z2Nat.id in E by lia. rewrite <- H3 in E. congruence.
      - apply nth_error_None in E. lia. }
    assert (Hm : (tp c (hd c) < m)%nat).
    { apply H6. apply tget_split in E. destruct E as (x & y & -> & _).
      apply in_or_app. right. now left. }
    destruct (wf_lookup n m tab (st c) (tp c (hd c)) W H2 Hm) as (row & tr & Er & Et & Hok).
    exists tr. split; [exact E|]. split.
    - unfold M; simpl. unfold simple_trans. rewrite H1, Er. exact Et.
    - split; [exact Hok|]. unfold T, table_of. rewrite Er, Et. reflexivity.
  Qed.

  (** effect on the tape *)
  Lemma wrel_put w c v :
    wrel w c -> shows o (lset (w_tape w) (Z.to_nat (w_pos w)) v) (put (tp c) (hd c) v) /\
                same_outside o k (tp c0) (put (tp c) (hd c) v).
  Proof.
    intros (H1 & H2 & H3 & H4 & H5 & H6 & H7 & H8). split.
    - intros i a Hi. rewrite H3.
      assert (G : forall (l : list nat) p i a, nth_error (lset l p v) i = Some a ->
                  (i = p /\ a = v) \/ (i <> p /\ nth_error l i = Some a)).
      { induction l as [|x l IH]; intros [|p] [|i0] a0; simpl; auto; try discriminate.
        - intros [= ->]. auto.
        - intros H. destruct (IH _ _ _ H) as [[-> ->]|[A B]]; auto. }
      apply G in Hi. destruct Hi as [[-> ->]|[A B]].
      + rewrite Z2Nat.id by lia. apply put_same.
      + rewrite put_other by lia. now apply H7.
    - intros z Hz. rewrite put_other by lia. now apply H8.
  Qed.

  Lemma In_lset' (l : list nat) i v x : In x (lset l i v) -> x = v \/ In x l.
  Proof.
    revert i. induction l as [|a l IH]; intros [|i]; simpl; auto.
    - intros [<-|]; auto.
    - intros [<-|H]; auto. apply IH in H. destruct H; auto.
  Qed.

  Lemma wrel_next w c w' :
    wrel w c -> wnext M w = Some w' -> exists c', step T c = Some c' /\ wrel w' c'.
  Proof.
    intros H E. destruct (wrel_trans w c H) as (tr & Eg & Et & Hok & HT).
    destruct (wrel_put w c (t_sym tr) H) as (P1 & P2).
    destruct H as (H1 & H2 & H3 & H4 & H5 & H6 & H7 & H8).
    unfold wnext in E. rewrite Eg, Et in E. cbn [w_pos w_tape] in E.
    destruct (cond_eqb (t_cond tr) RUNNING) eqn:Ec; simpl in E; [|discriminate].
    match type of E with (if ?x then _ else _) = _ => destruct x eqn:Ep end; [|discriminate].
    injection E as <-. apply andb_true_iff in Ep. destruct Ep as [Ep1 Ep2].
    apply Z.leb_le in Ep1. apply Z.ltb_lt in Ep2. rewrite lset_length in Ep2.
    destruct Hok as (_ & _ & Hc). destruct (t_cond tr); simpl in Ec; try discriminate.
    destruct Hc as (_ & Hs & q & Hq & Hqn). rewrite Hq in HT.
    eexists. split; [unfold step; rewrite HT; reflexivity|].
    split; [exact Hq|]. split; [exact Hqn|]. simpl hd. simpl tp. cbn [w_pos w_tape].
    rewrite lset_length. repeat split; auto; try lia.
    intros a Ha. apply In_lset' in Ha. destruct Ha as [->|Ha]; auto.
  Qed.

  Lemma wrel_run i : forall w c w',
    wrel w c -> wrun M i w = Some w' ->
    exists c', steps T i c = Some c' /\ wrel w' c'.
  Proof.
    induction i as [|i IH]; simpl; intros w c w' H E.
    - injection E as <-. eauto.
    - destruct (wnext M w) as [w1|] eqn:E1; [|discriminate].
      destruct (wrel_next _ _ _ H E1) as (c1 & -> & H1). eapply IH; eauto.
  Qed.

  Lemma wrel_window w c : wrel w c -> in_window o k c.
  Proof. intros (H1 & H2 & H3 & H4 & H5 & _). unfold in_window. lia. Qed.

  Lemma wrun_le a b w w' : (a <= b)%nat -> wrun M b w = Some w' -> exists w1, wrun M a w = Some w1.
  Proof.
    intros H E. replace b with (a + (b - a))%nat in E by lia. rewrite wrun_add in E.
    destruct (wrun M a w); [eauto|discriminate].
  Qed.

  Lemma wrun_stays i w c w' :
    wrel w c -> wrun M i w = Some w' -> stays T c o k (S i).
  Proof.
    intros H E j cj Hj Ej. destruct (wrun_le j i w w' ltac:(lia) E) as (w1 & E1).
    destruct (wrel_run j w c w1 H E1) as (c1 & Hc1 & Hr). rewrite Ej in Hc1.
    injection Hc1 as <-. eapply wrel_window; eauto.
  Qed.

  (** what an answer of the window simulation promises *)
  Definition window_answer (max : nat) (c : config) (t : transition (list nat) sstate) : Prop :=
    match t_cond t with
    | RUNNING => exists c', steps T (t_steps t) c = Some c' /\ stays T c o k (t_steps t) /\
        t_state t = SRun (st c') /\
        hd c' = match t_dir t with R => o + Z.of_nat k | L => o - 1 end /\
        shows o (t_sym t) (tp c') /\ same_outside o k (tp c) (tp c')
    | HALT => exists q s tape rest, halts_at T c (t_steps t) q s true tape /\
        stays T c o k (t_steps t) /\ t_details t = DCell s q :: rest /\
        shows o (t_sym t) tape /\ same_outside o k (tp c) tape
    | UNDEFINED => exists q s tape rest, halts_at T c (t_steps t) q s false tape /\
        stays T c o k (t_steps t) /\ t_details t = DCell s q :: rest /\
        shows o (t_sym t) tape /\ same_outside o k (tp c) tape
    | INF_REPEAT => forall i, exists ci, steps T i c = Some ci /\ in_window o k ci
    | GAVE_UP => exists c', steps T max c = Some c' /\ stays T c o k (S max)
    end.

  Theorem window_exact max q tape pos d :
    st c0 = q -> (q < n)%nat -> hd c0 = o + pos -> 0 <= pos < Z.of_nat k ->
    length tape = k -> (forall a, In a tape -> (a < m)%nat) -> shows o tape (tp c0) ->
    exists t, sim_limited M (SRun q) tape pos d max = Some t /\ length (t_sym t) = k /\
              window_answer max c0 t.
  Proof.
    intros Hq Hqn Hh Hp Hk Hm Hs. set (w0 := WCfg (SRun q) d pos tape).
    assert (H0 : wrel w0 c0).
    { split; [simpl; congruence|]. split; [congruence|]. simpl. repeat split; auto; lia. }
    assert (Htot : exists t, sim_limited M (SRun q) tape pos d max = Some t).
    { destruct (sim_limited M (SRun q) tape pos d max) as [t|] eqn:E; [eauto|]. exfalso.
      (* the machine relation on arbitrary half tapes *)
      set (C := win (fun i => 0%nat) tape pos d (SRun q) (fun i => 0%nat)).
      destruct W as (Wn & Wm & _).
      assert (HR : exists c, Rsimple n m C c).
      { set (p := winpos d pos).
        exists (Cfg q (match d with R => 0 | L => -1 end)
             (fun z => if z <? 0 then d_l C (Z.to_nat (-1 - z)) else d_r C (Z.to_nat z))).
        split; [reflexivity|]. split; [exact Hqn|]. split.
        - intros i. unfold C, win, sapp; simpl. split.
          + destruct (nth_error _ i) eqn:Ei; [|exact Wm]. apply nth_error_In in Ei.
            apply in_rev, In_firstn in Ei. auto.
          + destruct (nth_error (skipn _ _) i) eqn:Ei; [|exact Wm]. apply nth_error_In in Ei.
            apply In_skipn in Ei. auto.
        - exists 0. split; [destruct d; reflexivity|]. intros i. cbn [tp]. split.
          + replace (0 + Z.of_nat i <? 0) with false by (symmetry; apply Z.ltb_ge; lia).
            f_equal. lia.
          + replace (0 - 1 - Z.of_nat i <? 0) with true by (symmetry; apply Z.ltb_lt; lia).
            f_equal. lia. }
      destruct HR as (c & HR).
      eapply (sim_limited_total True T M (Rsimple n m) shalted (simple_msound True n m tab W)
                                max _ _ _ _ _ _ _ HR); [lia|exact E]. }
    destruct Htot as (t & Et). exists t. split; [exact Et|].
    destruct (sim_loop_end M M_sym_eq M_st_eq simple_one max (S max) w0 0 0 [] None 128 t
               ltac:(lia) Et) as (i & w & sym & tr & A1 & A2 & A3 & A4 & A5 & A6 & A7 & A8).
    destruct (wrel_run i w0 c0 w H0 A1) as (c & Hc & Hr).
    destruct (wrel_trans w c Hr) as (tr' & Eg & Et' & Hok & HT).
    rewrite A2 in Eg. injection Eg as ->. rewrite A3 in Et'. injection Et' as ->.
    destruct (wrel_put w c (t_sym tr') Hr) as (P1 & P2).
    pose proof (wrun_stays i w0 c0 w H0 A1) as St.
    assert (Hlen : length (t_sym t) = k).
    { rewrite A4, lset_length. destruct Hr as (_ & _ & _ & _ & H & _). exact H. }
    split; [exact Hlen|]. simpl in A7. unfold window_answer.
    assert (Hst0 : forall q s b, t_details tr' = [DCell s q] -> q = st c -> s = tp c (hd c) ->
              T (st c) (tp c (hd c)) = Stop (t_sym tr') (t_dir tr') b ->
              halts_at T c0 (t_steps t) q s b (put (tp c) (hd c) (t_sym tr'))).
    { intros q0 s0 b _ -> -> HS. exists i, c, (t_sym tr'), (t_dir tr').
      rewrite A7. repeat split; auto. }
    destruct A8 as [(B1 & B2)|[(B1 & B2)|[(B1 & B2 & p & B3)|(B1 & B2 & B3)]]]; rewrite B1.
    - (* repeat *)
      destruct B2 as [B2|(s & Hs1 & B2)]; [discriminate|].
      set (wn := WCfg (t_state tr') (t_dir tr') (w_pos w + dz (t_dir tr')) (t_sym t)) in *.
      assert (Hn : wnext M w = Some wn).
      { destruct (wrel_run s w0 c0 wn H0 B2) as (cs & _ & Hrs).
        destruct Hrs as (X1 & X2 & X3 & X4 & X5 & _). simpl in X1, X4, X5.
        unfold wnext. rewrite A2, A3. rewrite <- A4. cbn [w_pos w_tape].
        destruct Hok as (_ & _ & Hcc). destruct (t_cond tr') eqn:Ec; try contradiction.
        - simpl. rewrite X5.
          replace (0 <=? w_pos w + dz (t_dir tr')) with true by (symmetry; apply Z.leb_le; lia).
          replace (w_pos w + dz (t_dir tr') <? Z.of_nat k) with true
            by (symmetry; apply Z.ltb_lt; lia). reflexivity.
        - destruct Hcc as (_ & Hcc). congruence.
        - destruct Hcc as (_ & Hcc). congruence. }
      assert (Hall : forall j, exists wj, wrun M j w0 = Some wj).
      { assert (ES : wrun M (S i) w0 = wrun M s w0) by (rewrite wrun_S, A1, Hn; now rewrite B2).
        intros j. induction j as [j IHj] using lt_wf_ind.
        destruct (le_lt_dec j (S i)) as [Hle|Hlt].
        - eapply wrun_le; [exact Hle|]. rewrite ES. exact B2.
        - destruct (IHj (s + (j - S i))%nat ltac:(lia)) as (wj & Hj). exists wj.
          replace j with (S i + (j - S i))%nat at 1 by lia.
          rewrite wrun_add, ES. now rewrite wrun_add in Hj. }
      intros j. destruct (Hall j) as (wj & Hj).
      destruct (wrel_run j w0 c0 wj H0 Hj) as (cj & Hcj & Hrj). exists cj.
      split; [exact Hcj|]. eapply wrel_window; eauto.
    - (* gave up *)
      assert (i = max) by lia. subst i. exists c. split; auto.
    - (* stopped *)
      destruct Hok as (_ & _ & Hcc).
      destruct (t_cond tr') eqn:Ec; try contradiction; try congruence.
      + destruct Hcc as (Hd & _). rewrite Hd in B3. simpl in B3.
        exists (st c), (tp c (hd c)), (put (tp c) (hd c) (t_sym tr')), [p].
        split; [eapply Hst0; eauto|]. rewrite A7, A4.
        split; [exact St|]. split; [exact B3|]. split; [exact P1|exact P2].
      + destruct Hcc as (Hd & _). rewrite Hd in B3. simpl in B3.
        exists (st c), (tp c (hd c)), (put (tp c) (hd c) (t_sym tr')), [p].
        split; [eapply Hst0; eauto|]. rewrite A7, A4.
        split; [exact St|]. split; [exact B3|]. split; [exact P1|exact P2].
    - (* left the window *)
      destruct Hok as (_ & _ & Hcc). rewrite B2 in Hcc, HT.
      destruct Hcc as (_ & Hsy & q' & Hq' & Hqn'). rewrite Hq' in HT.
      exists (Cfg q' (hd c + dz (t_dir tr')) (put (tp c) (hd c) (t_sym tr'))).
      split.
      { rewrite A7, steps_S, Hc. unfold step. now rewrite HT. }
      split; [rewrite A7; exact St|]. split; [simpl; congruence|].
      split; [|split; [rewrite A4; exact P1|exact P2]].
      simpl in B3. rewrite Hlen in B3.
      destruct Hr as (_ & _ & X3 & X4 & _). simpl hd. rewrite A6.
      destruct (t_dir tr'); simpl in *; lia.
  Qed.

  (** with enough loops the simulation never gives up *)
  Theorem window_decides max q tape pos d t :
    st c0 = q -> (q < n)%nat -> hd c0 = o + pos -> 0 <= pos < Z.of_nat k ->
    length tape = k -> (forall a, In a tape -> (a < m)%nat) -> shows o tape (tp c0) ->
    enough_loops n m k max ->
    sim_limited M (SRun q) tape pos d max = Some t -> t_cond t <> GAVE_UP.
  Proof.
    intros Hq Hqn Hh Hp Hk Hm Hs He E Hg.
    set (C := win (fun i => 0%nat) tape pos d (SRun q) (fun i => 0%nat)).
    pose proof W as (Wn & Wm & _).
    assert (HR : exists c, Rsimple n m C c).
    { exists (Cfg q (match d with R => 0 | L => -1 end)
             (fun z => if z <? 0 then d_l C (Z.to_nat (-1 - z)) else d_r C (Z.to_nat z))).
      split; [reflexivity|]. split; [exact Hqn|]. split.
      - intros i. unfold C, win, sapp; simpl. split.
        + destruct (nth_error _ i) eqn:Ei; [|exact Wm]. apply nth_error_In in Ei.
          apply in_rev, In_firstn in Ei. auto.
        + destruct (nth_error (skipn _ _) i) eqn:Ei; [|exact Wm]. apply nth_error_In in Ei.
          apply In_skipn in Ei. auto.
      - exists 0. split; [destruct d; reflexivity|]. intros i. cbn [tp]. split.
        + replace (0 + Z.of_nat i <? 0) with false by (symmetry; apply Z.ltb_ge; lia).
          f_equal. lia.
        + replace (0 - 1 - Z.of_nat i <? 0) with true by (symmetry; apply Z.ltb_lt; lia).
          f_equal. lia. }
    destruct HR as (c & HR).
    assert (He' : enough_loops (length (map SRun (seq 0 n))) (length (seq 0 m)) (length tape) max)
      by (rewrite map_length, !seq_length, Hk; exact He).
    eapply (sim_limited_no_give_up True T M (Rsimple n m) shalted (seq 0 m) (map SRun (seq 0 n))
             (simple_msound True n m tab W) (simple_no_give_up n m tab W) (simple_finite n m)
             max _ _ _ _ _ _ _ _ HR); [lia|exact He'|exact E|exact Hg].
  Qed.

  (** detection time *)
  Theorem window_brent max q tape pos d mu lam :
    st c0 = q -> (q < n)%nat -> hd c0 = o + pos -> 0 <= pos < Z.of_nat k ->
    length tape = k -> (forall a, In a tape -> (a < m)%nat) -> shows o tape (tp c0) ->
    (forall i, exists ci, steps T i c0 = Some ci /\ in_window o k ci) ->
    (0 < lam)%nat ->
    (forall i a b, (mu <= i)%nat -> steps T i c0 = Some a -> steps T (i + lam) c0 = Some b ->
                   ceq a b) ->
    (3 * Nat.max 128 (Nat.max (S mu) lam) <= max)%nat ->
    exists t, sim_limited M (SRun q) tape pos d max = Some t /\ t_cond t = INF_REPEAT.
  Proof.
    intros Hq Hqn Hh Hp Hk Hm Hs Hall Hlam Hper Hmax. set (w0 := WCfg (SRun q) d pos tape).
    assert (H0 : wrel w0 c0).
    { split; [simpl; congruence|]. split; [congruence|]. simpl. repeat split; auto; lia. }
    assert (Hdef : forall i, exists wi, wrun M i w0 = Some wi).
    { induction i as [|i (wi & IH)]; [exists w0; reflexivity|].
      destruct (wrel_run i w0 c0 wi H0 IH) as (ci & Hci & Hri).
      destruct (wrel_trans wi ci Hri) as (tr & Eg & Et & Hok & HT).
      destruct (Hall (S i)) as (cS & HcS & HwS).
      rewrite steps_S, Hci in HcS. unfold step in HcS. rewrite HT in HcS.
      rewrite wrun_S, IH. unfold wnext. rewrite Eg, Et. cbn [w_pos w_tape].
      destruct Hok as (_ & _ & Hcc).
      destruct (t_cond tr); try contradiction; try discriminate.
      destruct Hcc as (_ & _ & q' & Hq' & _). rewrite Hq' in HcS. injection HcS as <-.
      unfold in_window in HwS. simpl in HwS.
      destruct Hri as (_ & _ & X3 & X4 & X5 & _). rewrite lset_length, X5.
      replace (0 <=? w_pos wi + dz (t_dir tr)) with true by (symmetry; apply Z.leb_le; lia).
      replace (w_pos wi + dz (t_dir tr) <? Z.of_nat k) with true
        by (symmetry; apply Z.ltb_lt; lia).
      simpl. eauto. }
    (* window configurations agree up to direction, and after one more move exactly *)
    assert (Heq : forall i a b, (mu <= i)%nat -> wrun M i w0 = Some a -> wrun M (i + lam) w0 = Some b ->
               w_state a = w_state b /\ w_pos a = w_pos b /\ w_tape a = w_tape b).
    { intros i a b Hi Ea Eb.
      destruct (wrel_run _ _ _ _ H0 Ea) as (ca & Hca & (A1 & A2 & A3 & A4 & A5 & A6 & A7 & A8)).
      destruct (wrel_run _ _ _ _ H0 Eb) as (cb & Hcb & (B1 & B2 & B3 & B4 & B5 & B6 & B7 & B8)).
      destruct (Hper i ca cb Hi Hca Hcb) as (Q1 & Q2 & Q3).
      split; [congruence|]. split; [lia|].
      assert (G : forall (x y : list nat), length x = length y ->
                 (forall i a b, nth_error x i = Some a -> nth_error y i = Some b -> a = b) -> x = y).
      { induction x as [|u x IH]; destruct y as [|v y]; simpl; try lia; auto.
        intros L1 L2. f_equal; [apply (L2 O); auto|]. apply IH; [lia|].
        intros j. apply (L2 (S j)). }
      apply G; [lia|]. intros j x y Hx Hy. apply A7 in Hx. apply B7 in Hy.
      rewrite <- Hx, <- Hy. apply Q3. }
    apply (brent M M_sym_eq M_st_eq w0 (S mu) lam max).
    - intros i. destruct (Hdef i) as (wi & ->). discriminate.
    - exact Hlam.
    - intros i Hi. destruct i as [|i]; [lia|].
      destruct (Hdef i) as (a & Ea). destruct (Hdef (i + lam)%nat) as (b & Eb).
      replace (S i + lam)%nat with (S (i + lam)) by lia. rewrite !wrun_S, Ea, Eb.
      destruct (Heq i a b ltac:(lia) Ea Eb) as (E1 & E2 & E3).
      unfold wnext. rewrite E1, E2, E3. reflexivity.
    - exact Hmax.
  Qed.
End Window.
