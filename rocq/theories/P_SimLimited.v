(** * Soundness of machines and of [sim_limited], generic in the base machine *)
Require Import ZArith List Lia Bool Arith.
From Verif Require Import Spec_TM M_Turing_Machine P_Stream.
Import ListNotations.
Open Scope Z_scope.

(** [seen] tells, for the first [n] configurations of the run from [c], when
    each state was last current. *)
Definition seen_ok (T : table) (c : config) (n : nat) (seen : dict) : Prop :=
  forall q, match dict_get q seen with
            | Some j => (j < n)%nat /\ (exists c', steps T j c = Some c' /\ st c' = q) /\
                        forall i c', (j < i < n)%nat -> steps T i c = Some c' -> st c' <> q
            | None => forall i c', (i < n)%nat -> steps T i c = Some c' -> st c' <> q
            end.

Section Sound.
  Context {Sym St : Type}.

  (** value computed by [get_nonzeros] on a directed configuration *)
  Definition sc (M : machine Sym St) (C : dcfg Sym St) (n : nat) : Prop :=
    exists a b, ssum (m_eval_sym M) (d_l C) a /\ ssum (m_eval_sym M) (d_r C) b /\
                n = (a + b + m_eval_st M (d_st C))%nat.

  (** what a transition [t] out of configuration [C], denoting [c], promises *)
  Definition stops T (c : config) (t_stp : nat) (ds : list detail) (seen : dict) (b : bool)
             (score_of : nat -> Prop) : Prop :=
    exists q s tape ds', ds = DCell s q :: ds' /\
      halts_at T c t_stp q s b tape /\ (forall n, score_of n -> score tape n) /\
      seen_ok T c t_stp seen.

  (** [Gd] guards the infinite verdict: stacked machines may lose it (C07) while
      everything else they report stays exact *)
  Definition outcome (Gd : Prop) T (M : machine Sym St) (Rp : dcfg Sym St -> config -> Prop)
             (halted : St -> Prop) (C : dcfg Sym St) (c : config)
             (t : transition Sym St) : Prop :=
    let C' := apply_t C (t_sym t) (t_state t) (t_dir t) in
    match t_cond t with
    | RUNNING => ~ halted (t_state t) /\ (0 < t_steps t)%nat /\
                 seen_ok T c (t_steps t) (t_seen t) /\
                 exists c', steps T (t_steps t) c = Some c' /\ Rp C' c'
    | HALT => halted (t_state t) /\
              stops T c (t_steps t) (t_details t) (t_seen t) true (sc M C')
    | UNDEFINED => halted (t_state t) /\
                   stops T c (t_steps t) (t_details t) (t_seen t) false (sc M C')
    | INF_REPEAT => Gd -> nonhalting T c
    | GAVE_UP => True
    end.

  (** machine [M] with representation relation [Rp] simulates table [T] *)
  Record msound (Gd : Prop) (T : table) (M : machine Sym St) (Rp : dcfg Sym St -> config -> Prop)
         (halted : St -> Prop) : Prop := {
    ms_sym_eq : forall a b, m_sym_eqb M a b = true <-> a = b;
    ms_st_eq : forall a b, m_st_eqb M a b = true <-> a = b;
    ms_ext : forall C C' c, deq C C' -> Rp C c -> Rp C' c;
    ms_total : forall C c, Rp C c -> m_trans M (facing C) (d_st C) (d_dir C) <> None;
    ms_step : forall C c t, Rp C c -> m_trans M (facing C) (d_st C) (d_dir C) = Some t ->
                            outcome Gd T M Rp halted C c t;
    ms_score : forall C c n, Rp C c -> sc M C n -> score (tp c) n;
    ms_init : Rp (DCfg (fun _ => m_init_sym M) (fun _ => m_init_sym M) (m_init_st M) R) initial;
    ms_eval_init : m_eval_sym M (m_init_sym M) = 0%nat
  }.

  (** the machine never abandons a transition *)
  Definition no_give_up (M : machine Sym St) (Rp : dcfg Sym St -> config -> Prop) : Prop :=
    forall C c t, Rp C c -> m_trans M (facing C) (d_st C) (d_dir C) = Some t ->
                  t_cond t <> GAVE_UP.

  Definition winw (l : nat -> Sym) (w : wcfg Sym St) (r : nat -> Sym) : dcfg Sym St :=
    win l (w_tape w) (w_pos w) (w_dir w) (w_state w) r.

  (** [score_of] for a finished window *)
  Definition win_sc (M : machine Sym St) l r (tape : list Sym) (s : St) (n : nat) : Prop :=
    exists a b, ssum (m_eval_sym M) l a /\ ssum (m_eval_sym M) r b /\
                n = (a + b + list_sum (map (m_eval_sym M) tape) + m_eval_st M s)%nat.

  Definition wout (Gd : Prop) T (M : machine Sym St) (Rp : dcfg Sym St -> config -> Prop)
             (halted : St -> Prop) l r (c : config) (t : transition (list Sym) St) : Prop :=
    match t_cond t with
    | RUNNING => ~ halted (t_state t) /\ (0 < t_steps t)%nat /\
                 seen_ok T c (t_steps t) (t_seen t) /\
                 exists c', steps T (t_steps t) c = Some c' /\
                   Rp (win l (t_sym t)
                           (match t_dir t with R => Z.of_nat (length (t_sym t)) | L => -1 end)
                           (t_dir t) (t_state t) r) c'
    | HALT => halted (t_state t) /\
              stops T c (t_steps t) (t_details t) (t_seen t) true
                    (win_sc M l r (t_sym t) (t_state t))
    | UNDEFINED => halted (t_state t) /\
                   stops T c (t_steps t) (t_details t) (t_seen t) false
                    (win_sc M l r (t_sym t) (t_state t))
    | INF_REPEAT => Gd -> nonhalting T c
    | GAVE_UP => True
    end.
End Sound.

Lemma dict_get_set k v d k' :
  dict_get k' (dict_set k v d) = if Nat.eqb k' k then Some v else dict_get k' d.
Proof.
  induction d as [|[a b] d IH]; simpl.
  - reflexivity.
  - destruct (Nat.eqb k a) eqn:E; simpl.
    + apply Nat.eqb_eq in E. subst a.
      destruct (Nat.eqb k' k) eqn:E'; auto.
    + destruct (Nat.eqb k' a) eqn:E'; [|exact IH].
      apply Nat.eqb_eq in E'. subst a.
      rewrite (Nat.eqb_sym k' k), E. reflexivity.
Qed.

(** keys unique *)
Definition dict_wf (d : dict) := NoDup (map fst d).

Lemma dict_set_keys k v d :
  forall x, In x (map fst (dict_set k v d)) <-> x = k \/ In x (map fst d).
Proof.
  induction d as [|[a b] d IH]; simpl; intros x; [intuition|].
  destruct (Nat.eqb k a) eqn:E; simpl.
  - apply Nat.eqb_eq in E. subst. intuition.
  - rewrite IH. intuition.
Qed.

Lemma dict_set_wf k v d : dict_wf d -> dict_wf (dict_set k v d).
Proof.
  unfold dict_wf. induction d as [|[a b] d IH]; simpl; intros H.
  - constructor; auto.
  - destruct (Nat.eqb k a) eqn:E; simpl; auto.
    inversion H; subst. constructor; auto.
    intros Hin. apply dict_set_keys in Hin. destruct Hin as [->|Hin]; auto.
    rewrite Nat.eqb_refl in E. discriminate.
Qed.

Lemma merge_seen_wf seen n new : dict_wf seen -> dict_wf (merge_seen seen n new).
Proof.
  unfold merge_seen. revert seen. induction new as [|[k v] new IH]; simpl; auto.
  intros seen H. apply IH. now apply dict_set_wf.
Qed.

Lemma dict_get_none k d : ~ In k (map fst d) -> dict_get k d = None.
Proof.
  induction d as [|[a b] d IH]; simpl; auto.
  intros H. destruct (Nat.eqb k a) eqn:E.
  - apply Nat.eqb_eq in E. subst. exfalso. apply H. now left.
  - apply IH. intros Hk. apply H. now right.
Qed.

Lemma merge_seen_get seen n new q :
  dict_wf new ->
  dict_get q (merge_seen seen n new) =
  match dict_get q new with Some j => Some (n + j)%nat | None => dict_get q seen end.
Proof.
  unfold merge_seen. revert seen. induction new as [|[k v] new IH]; simpl; intros seen H; auto.
  inversion H; subst. rewrite IH by assumption.
  destruct (Nat.eqb q k) eqn:E.
  - apply Nat.eqb_eq in E. subst q. rewrite (dict_get_none _ _ H2).
    rewrite dict_get_set, Nat.eqb_refl. reflexivity.
  - destruct (dict_get q new); auto. now rewrite dict_get_set, E.
Qed.

(** the last entry wins even without unique keys *)
Lemma merge_seen_ok T c n c' m seen new :
  dict_wf new -> steps T n c = Some c' -> seen_ok T c n seen -> seen_ok T c' m new ->
  seen_ok T c (n + m) (merge_seen seen n new).
Proof.
  intros W E H1 H2 q. rewrite merge_seen_get by assumption.
  specialize (H1 q). specialize (H2 q).
  assert (A : forall i d, (n <= i)%nat -> steps T i c = Some d -> steps T (i - n) c' = Some d).
  { intros i d Hi Hd. replace i with (n + (i - n))%nat in Hd by lia.
    now rewrite steps_add, E in Hd. }
  destruct (dict_get q new) as [j|].
  - destruct H2 as (Hj & (d & Hd & Hq) & Hr). split; [lia|]. split.
    + exists d. split; auto. eapply steps_compose; eauto.
    + intros i e Hi He. apply (Hr (i - n)%nat e); [lia|]. apply A; [lia|auto].
  - assert (B : forall i e, (n <= i < n + m)%nat -> steps T i c = Some e -> st e <> q).
    { intros i e Hi He. apply (H2 (i - n)%nat e); [lia|]. apply A; [lia|auto]. }
    destruct (dict_get q seen) as [j|].
    + destruct H1 as (Hj & Hd & Hr). split; [lia|]. split; auto.
      intros i e Hi He. destruct (le_lt_dec n i); [apply (B i); auto; lia|].
      apply (Hr i); auto. lia.
    + intros i e Hi He. destruct (le_lt_dec n i); [apply (B i); auto|].
      apply (H1 i); auto.
Qed.

Lemma seen_ok_nil T c : seen_ok T c 0 [].
Proof. intros q. simpl. intros. lia. Qed.

Lemma list_eqb_eq {A} (eqb : A -> A -> bool) :
  (forall a b, eqb a b = true <-> a = b) ->
  forall x y, list_eqb eqb x y = true <-> x = y.
Proof.
  intros H. induction x as [|a x IH]; destruct y as [|b y]; simpl; try (split; congruence).
  rewrite andb_true_iff, H, IH. split; [intros [-> ->]; auto|]. intros E. inversion E; auto.
Qed.

Section SimLoop.
  Context {Sym St : Type} (Gd : Prop) (T : table) (M : machine Sym St)
          (Rp : dcfg Sym St -> config -> Prop) (halted : St -> Prop).
  Hypothesis MS : msound Gd T M Rp halted.
  Hypothesis NG : Gd -> no_give_up M Rp.
  Hypothesis SW : forall C c t, Rp C c -> m_trans M (facing C) (d_st C) (d_dir C) = Some t ->
                                dict_wf (t_seen t).

  Lemma wcfg_eqb_eq a b : wcfg_eqb M a b = true -> a = b.
  Proof.
    unfold wcfg_eqb. rewrite !andb_true_iff, dir_eqb_eq, Z.eqb_eq.
    rewrite (ms_st_eq _ _ _ _ _ MS), (list_eqb_eq _ (ms_sym_eq _ _ _ _ _ MS)).
    destruct a, b; simpl. intros [[[-> ->] ->] ->]. reflexivity.
  Qed.

  Lemma win_sc_iff l tape pos d s r n :
    sc M (win l tape pos d s r) n <-> win_sc M l r tape s n.
  Proof.
    unfold sc, win_sc, win; simpl.
    pose proof (firstn_skipn (winpos d pos) tape) as F.
    split.
    - intros (a & b & Ha & Hb & ->).
      apply ssum_sapp in Ha. destruct Ha as (a' & Ha & ->).
      apply ssum_sapp in Hb. destruct Hb as (b' & Hb & ->).
      exists a', b'. repeat split; auto.
      rewrite <- F at 3. rewrite map_app, list_sum_app, map_rev.
      assert (G : forall x, list_sum (rev x) = list_sum x).
      { induction x; simpl; auto. rewrite list_sum_app. simpl. lia. }
      rewrite G. lia.
    - intros (a & b & Ha & Hb & ->).
      exists (list_sum (map (m_eval_sym M) (rev (firstn (winpos d pos) tape))) + a)%nat,
             (list_sum (map (m_eval_sym M) (skipn (winpos d pos) tape)) + b)%nat.
      repeat split.
      + apply ssum_sapp. eauto.
      + apply ssum_sapp. eauto.
      + rewrite <- F at 1. rewrite map_app, list_sum_app, map_rev.
        assert (G : forall x, list_sum (rev x) = list_sum x).
        { induction x; simpl; auto. rewrite list_sum_app. simpl. lia. }
        rewrite G. lia.
  Qed.

  (** path property of the saved configuration *)
  Definition old_ok (old : option (wcfg Sym St)) (w : wcfg Sym St) : Prop :=
    match old with
    | None => True
    | Some o => ~ halted (w_state o) /\
        forall l r c, Rp (winw l o r) c ->
          exists k c', steps T k c = Some c' /\ Rp (winw l w r) c'
    end.

  Lemma sc_ext C C' n : deq C C' -> sc M C n -> sc M C' n.
  Proof.
    intros (H1&H2&H3&H4) (a & b & Ha & Hb & ->). exists a, b.
    rewrite H3. repeat split; auto; eapply ssum_ext; eauto.
  Qed.

  Lemma sim_loop_sound max_loops fuel : forall w n loops seen old next t l r c0 c,
    steps T n c0 = Some c -> Rp (winw l w r) c -> seen_ok T c0 n seen -> dict_wf seen ->
    old_ok old w ->
    sim_loop M max_loops fuel w n loops seen old next = Some t ->
    wout Gd T M Rp halted l r c0 t /\ length (t_sym t) = length (w_tape w) /\ dict_wf (t_seen t).
  Proof.
    induction fuel as [|fuel IH]; simpl; [discriminate|].
    intros w n loops seen old next t l r c0 c Hn HR Hseen Hwf Hold.
    destruct (tget (w_tape w) (w_pos w)) as [symbol|] eqn:Eg; [|discriminate].
    destruct (m_trans M symbol (w_state w) (w_dir w)) as [tr|] eqn:Et; [|discriminate].
    set (tape' := lset (w_tape w) (Z.to_nat (w_pos w)) (t_sym tr)).
    set (pos' := w_pos w + dz (t_dir tr)).
    set (seen' := merge_seen seen n (t_seen tr)).
    set (w' := WCfg (t_state tr) (t_dir tr) pos' tape').
    assert (Hlen : length tape' = length (w_tape w)) by apply lset_length.
    assert (Hface : forall l r, facing (winw l w r) = symbol)
      by (intros; now apply win_facing).
    assert (Happ : forall l r,
       deq (apply_t (winw l w r) (t_sym tr) (t_state tr) (t_dir tr)) (winw l w' r)).
    { intros. unfold winw, w'; simpl. eapply win_apply; eauto. }
    assert (Hout : forall l r c, Rp (winw l w r) c ->
              outcome Gd T M Rp halted (winw l w r) c tr).
    { intros l' r' c' H. apply (ms_step _ _ _ _ _ MS); auto.
      rewrite Hface. exact Et. }
    assert (Htr : m_trans M (facing (winw l w r)) (d_st (winw l w r)) (d_dir (winw l w r))
                  = Some tr) by (rewrite Hface; exact Et).
    pose proof (fun g => NG g _ _ _ HR Htr) as Hng.
    pose proof (SW _ _ _ HR Htr) as Hsw.
    assert (Hwf' : dict_wf seen') by (apply merge_seen_wf; auto).
    (* facts about the current transition *)
    pose proof (Hout _ _ _ HR) as Hcur.
    assert (Hrun : t_cond tr = RUNNING ->
      ~ halted (t_state tr) /\ (0 < t_steps tr)%nat /\
      seen_ok T c0 (n + t_steps tr) seen' /\
      exists c', steps T (n + t_steps tr) c0 = Some c' /\ Rp (winw l w' r) c').
    { intros E. unfold outcome in Hcur. rewrite E in Hcur.
      destruct Hcur as (A & B & C & c' & D & F). repeat split; auto.
      - eapply merge_seen_ok; eauto.
      - exists c'. split; [eapply steps_compose; eauto|].
        eapply (ms_ext _ _ _ _ _ MS); eauto. }
    assert (Hstop : forall b, halted (t_state tr) /\
        stops T c (t_steps tr) (t_details tr) (t_seen tr) b
              (sc M (apply_t (winw l w r) (t_sym tr) (t_state tr) (t_dir tr))) ->
        forall p, halted (t_state tr) /\
          stops T c0 (n + t_steps tr) (t_details tr ++ [DPos p]) seen' b
                (win_sc M l r tape' (t_state tr))).
    { intros b (A & q & s & tape & ds' & Hd & Hh & Hsc & Hs) p. split; auto.
      exists q, s, tape, (ds' ++ [DPos p]). rewrite Hd. repeat split; auto.
      - eapply halts_at_steps; eauto.
      - intros k Hk. apply Hsc. eapply sc_ext; [apply deq_sym, Happ|].
        unfold winw, w'; simpl. now apply win_sc_iff.
      - eapply merge_seen_ok; eauto. }
    destruct (match old with Some o => wcfg_eqb M w' o | None => false end) eqn:Eold.
    - (* repeat found *)
      intros E. injection E as <-. unfold wout; simpl. split; [|now split]. intros g.
      specialize (Hng g).
      destruct old as [o|]; [|discriminate].
      apply wcfg_eqb_eq in Eold. destruct Hold as [Hnh Hpath].
      destruct (t_cond tr) eqn:Ec.
      + destruct (Hrun eq_refl) as (_ & _ & _ & c' & Hc' & HR').
        eapply nonhalting_steps; [exact Hc'|].
        apply (nonhalting_invariant T (Rp (winw l w' r))); [|exact HR'].
        intros e He. rewrite Eold in He.
        destruct (Hpath _ _ _ He) as (k & e' & Hk & He').
        pose proof (Hout _ _ _ He') as Ho. unfold outcome in Ho. rewrite Ec in Ho.
        destruct Ho as (_ & Hp & _ & e'' & He'' & HRe).
        exists (k + t_steps tr)%nat, e''. split; [lia|]. split.
        * eapply steps_compose; eauto.
        * eapply (ms_ext _ _ _ _ _ MS); eauto.
      + exfalso. apply Hnh. unfold outcome in Hcur. rewrite Ec in Hcur.
        rewrite <- Eold. simpl. tauto.
      + unfold outcome in Hcur. rewrite Ec in Hcur.
        eapply nonhalting_steps; [exact Hn|auto].
      + exfalso. apply Hnh. unfold outcome in Hcur. rewrite Ec in Hcur.
        rewrite <- Eold. simpl. tauto.
      + congruence.
    - destruct (Nat.ltb max_loops (S loops)) eqn:Eml.
      { intros E. injection E as <-. unfold wout; simpl. auto. }
      destruct (negb (cond_eqb (t_cond tr) RUNNING)) eqn:Ec.
      { intros E. injection E as <-. unfold wout; simpl. split; [|now split].
        unfold outcome in Hcur. destruct (t_cond tr) eqn:Ec'; simpl in Ec; try discriminate.
        - now apply Hstop.
        - intros g. eapply nonhalting_steps; [exact Hn|auto].
        - now apply Hstop.
        - exact I. }
      assert (Ec' : t_cond tr = RUNNING).
      { destruct (t_cond tr); simpl in Ec; congruence. }
      destruct (Hrun Ec') as (A & B & C & c' & D & F).
      destruct (negb ((0 <=? pos') && (pos' <? Z.of_nat (length tape')))) eqn:Ep.
      { intros E. injection E as <-. unfold wout; simpl. split; [|now split].
        split; [exact A|]. split; [lia|]. split; [exact C|]. exists c'. split; [exact D|].
        assert (Hpos : pos' = match t_dir tr with R => Z.of_nat (length tape') | L => -1 end).
        { apply tget_split in Eg. destruct Eg as (x & y & Hx & Hpx).
          apply negb_true_iff, andb_false_iff in Ep. rewrite Hlen in *.
          rewrite Hx in *. rewrite app_length in *. simpl in *.
          unfold pos' in *. destruct (t_dir tr); simpl in *;
            destruct Ep as [Ep|Ep]; first [apply Z.leb_gt in Ep | apply Z.ltb_ge in Ep]; lia. }
        unfold winw, w' in F; simpl in F. rewrite Hpos in F. exact F. }
      intros E.
      destruct (IH w' (n + t_steps tr)%nat (S loops) seen'
                 (if Nat.leb next (S loops) then Some w' else old)
                 (if Nat.leb next (S loops) then (next * 2)%nat else next)
                 t l r c0 c') as (X & Y & Z0); auto.
      + destruct (Nat.leb next (S loops)).
        * split; [exact A|]. intros l' r' e He. exists O, e. auto.
        * destruct old as [o|]; [|exact I]. destruct Hold as [Hnh Hpath].
          split; [exact Hnh|]. intros l' r' e He.
          destruct (Hpath _ _ _ He) as (k & e' & Hk & He').
          pose proof (Hout _ _ _ He') as Ho. unfold outcome in Ho. rewrite Ec' in Ho.
          destruct Ho as (_ & Hp & _ & e'' & He'' & HRe).
          exists (k + t_steps tr)%nat, e''. split.
          -- eapply steps_compose; eauto.
          -- eapply (ms_ext _ _ _ _ _ MS); eauto.
      + split; [exact X|]. split; [|exact Z0]. simpl in Y. congruence.
  Qed.

  Theorem sim_limited_sound max_loops s tape pos d t l r c :
    Rp (win l tape pos d s r) c ->
    sim_limited M s tape pos d max_loops = Some t ->
    wout Gd T M Rp halted l r c t /\ length (t_sym t) = length tape /\ dict_wf (t_seen t).
  Proof.
    intros HR E.
    apply (sim_loop_sound max_loops (S max_loops) (WCfg s d pos tape) 0 0 [] None 128
             t l r c c); auto.
    - apply seen_ok_nil.
    - constructor.
    - exact I.
  Qed.

  (** no exception: the window simulation always returns a transition *)
  Lemma sim_loop_total max_loops fuel : forall w n loops seen old next l r c,
    Rp (winw l w r) c -> 0 <= w_pos w < Z.of_nat (length (w_tape w)) ->
    (fuel + loops = S max_loops)%nat -> (0 < fuel)%nat ->
    sim_loop M max_loops fuel w n loops seen old next <> None.
  Proof.
    induction fuel as [|fuel IH]; simpl; [lia|].
    intros w n loops seen old next l r c HR Hpos Hf _.
    destruct (tget (w_tape w) (w_pos w)) as [symbol|] eqn:Eg.
    2:{ unfold tget in Eg. replace (w_pos w <? 0) with false in Eg by (symmetry; apply Z.ltb_ge; lia).
        apply nth_error_None in Eg. lia. }
    pose proof (ms_total _ _ _ _ _ MS _ _ HR) as Ht.
    assert (Hface : facing (winw l w r) = symbol) by now apply win_facing.
    rewrite Hface in Ht. simpl in Ht.
    destruct (m_trans M symbol (w_state w) (w_dir w)) as [tr|] eqn:Et; [|congruence].
    cbv zeta. cbn [w_state w_dir w_pos w_tape].
    match goal with |- (if ?x then _ else _) <> None => destruct x end; [discriminate|].
    destruct (Nat.ltb max_loops (S loops)) eqn:Eml; [discriminate|].
    apply Nat.ltb_ge in Eml.
    destruct (negb (cond_eqb (t_cond tr) RUNNING)) eqn:Ec; [discriminate|].
    match goal with |- (if ?x then _ else _) <> None => destruct x eqn:Ep end; [discriminate|].
    apply negb_false_iff, andb_true_iff in Ep. destruct Ep as [Ep1 Ep2].
    apply Z.leb_le in Ep1. apply Z.ltb_lt in Ep2.
    assert (Htr : m_trans M (facing (winw l w r)) (d_st (winw l w r)) (d_dir (winw l w r))
                  = Some tr) by (rewrite Hface; exact Et).
    pose proof (ms_step _ _ _ _ _ MS _ _ _ HR Htr) as Ho.
    unfold outcome in Ho. destruct (t_cond tr); simpl in Ec; try discriminate.
    destruct Ho as (_ & _ & _ & c' & _ & HR').
    eapply IH with (l := l) (r := r) (c := c'); simpl; auto; try lia.
    eapply (ms_ext _ _ _ _ _ MS); [|exact HR'].
    unfold winw; simpl. eapply win_apply; eauto.
  Qed.

  Theorem sim_limited_total max_loops s tape pos d l r c :
    Rp (win l tape pos d s r) c -> 0 <= pos < Z.of_nat (length tape) ->
    sim_limited M s tape pos d max_loops <> None.
  Proof.
    intros HR Hp. unfold sim_limited.
    eapply sim_loop_total with (l := l) (r := r) (c := c); simpl; auto; lia.
  Qed.
End SimLoop.
