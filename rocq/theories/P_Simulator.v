(** * The accelerated simulator is exact, generic in machine and prover *)
Require Import ZArith List Lia Bool Arith.
From Verif Require Import Spec_TM M_Turing_Machine P_Stream P_SimLimited P_Macro M_Tape M_Simulator P_Tape.
Import ListNotations.
Open Scope Z_scope.

(** [o] is the last of the first [n] steps from [c] at which state [q] is current *)
Definition lastv (T : table) (c : config) (n : nat) (q : nat) (o : option nat) : Prop :=
  match o with
  | Some j => (j < n)%nat /\ (exists c', steps T j c = Some c' /\ st c' = q) /\
              forall i c', (j < i < n)%nat -> steps T i c = Some c' -> st c' <> q
  | None => forall i c', (i < n)%nat -> steps T i c = Some c' -> st c' <> q
  end.

Lemma lastv_app T c n c' m q o1 o2 :
  steps T n c = Some c' -> lastv T c n q o1 -> lastv T c' m q o2 ->
  lastv T c (n + m) q (match o2 with Some j => Some (n + j)%nat | None => o1 end).
Proof.
  intros E H1 H2.
  assert (A : forall i d, (n <= i)%nat -> steps T i c = Some d -> steps T (i - n) c' = Some d).
  { intros i d Hi Hd. replace i with (n + (i - n))%nat in Hd by lia.
    now rewrite steps_add, E in Hd. }
  destruct o2 as [j|].
  - destruct H2 as (Hj & (d & Hd & Hq) & Hr). split; [lia|]. split.
    + exists d. split; auto. eapply steps_compose; eauto.
    + intros i e Hi He. apply (Hr (i - n)%nat e); [lia|]. apply A; [lia|auto].
  - assert (B : forall i e, (n <= i < n + m)%nat -> steps T i c = Some e -> st e <> q).
    { intros i e Hi He. apply (H2 (i - n)%nat e); [lia|]. apply A; [lia|auto]. }
    destruct o1 as [j|].
    + destruct H1 as (Hj & Hd & Hr). split; [lia|]. split; auto.
      intros i e Hi He. destruct (le_lt_dec n i); [apply (B i); auto; lia|].
      apply (Hr i); auto. lia.
    + intros i e Hi He. destruct (le_lt_dec n i); [apply (B i); auto|].
      apply (H1 i); auto.
Qed.

Lemma lastv_nil T c q : lastv T c 0 q None.
Proof. intros i c' H. lia. Qed.

(** the recorded time is unique *)
Lemma lastv_fun T c n q o o' e :
  steps T n c = Some e -> lastv T c n q o -> lastv T c n q o' -> o = o'.
Proof.
  intros E H1 H2.
  assert (A : forall i, (i < n)%nat -> exists d, steps T i c = Some d).
  { intros i Hi. eapply steps_le; [|exact E]. lia. }
  destruct o as [i|], o' as [j|]; auto.
  - destruct H1 as (Hi & (d & Hd & Hq) & Hr). destruct H2 as (Hj & (d' & Hd' & Hq') & Hr').
    f_equal. destruct (Nat.lt_trichotomy i j) as [L|[L|L]]; auto.
    + exfalso. apply (Hr j d'); auto.
    + exfalso. apply (Hr' i d); auto.
  - destruct H1 as (Hi & (d & Hd & Hq) & Hr). exfalso. now apply (H2 i d).
  - destruct H2 as (Hi & (d & Hd & Hq) & Hr). exfalso. now apply (H1 j d).
Qed.

Definition zseen_ok (T : table) (c : config) (n : Z) (d : ndict Z) : Prop :=
  forall q, match nd_get q d with Some j => 0 <= j | None => True end /\
            lastv T c (Z.to_nat n) q (option_map Z.to_nat (nd_get q d)).

Definition oseen_ok T c n (o : option (ndict Z)) : Prop :=
  match o with Some d => zseen_ok T c n d | None => True end.

Lemma zseen_nil T c : zseen_ok T c 0 [].
Proof. intros q. simpl. split; auto. intros. lia. Qed.

Lemma nd_get_set {N} k (v : N) d k' :
  nd_get k' (nd_set k v d) = if Nat.eqb k' k then Some v else nd_get k' d.
Proof.
  induction d as [|[a b] d IH]; simpl.
  - reflexivity.
  - destruct (Nat.eqb k a) eqn:E; simpl.
    + apply Nat.eqb_eq in E. subst a. destruct (Nat.eqb k' k) eqn:E'; auto.
    + destruct (Nat.eqb k' a) eqn:E'; [|exact IH].
      apply Nat.eqb_eq in E'. subst a. rewrite (Nat.eqb_sym k' k), E. reflexivity.
Qed.

Lemma nd_get_none {N} k (d : ndict N) : ~ In k (map fst d) -> nd_get k d = None.
Proof.
  induction d as [|[a b] d IH]; simpl; auto.
  intros H. destruct (Nat.eqb k a) eqn:E.
  - apply Nat.eqb_eq in E. subst. exfalso. apply H. now left.
  - apply IH. intros Hk. apply H. now right.
Qed.

Lemma nd_fold_get {V} (f : V -> Z) (new : list (nat * V)) q : forall d,
  NoDup (map fst new) ->
  nd_get q (fold_left (fun d kv => nd_set (fst kv) (f (snd kv)) d) new d) =
  match nd_get q new with Some v => Some (f v) | None => nd_get q d end.
Proof.
  induction new as [|[k v] new IH]; simpl; intros d H; auto.
  inversion H; subst. rewrite IH by assumption.
  destruct (Nat.eqb q k) eqn:E.
  - apply Nat.eqb_eq in E. subst q. rewrite (nd_get_none _ _ H2).
    rewrite nd_get_set, Nat.eqb_refl. reflexivity.
  - destruct (nd_get q new); auto. now rewrite nd_get_set, E.
Qed.

Lemma dict_nd_get k (d : dict) : dict_get k d = nd_get k d.
Proof. induction d as [|[a b] d IH]; simpl; auto. destruct (Nat.eqb k a); auto. Qed.

Lemma seen_ok_lastv T c n d : seen_ok T c n d -> forall q, lastv T c n q (dict_get q d).
Proof. intros H q. apply H. Qed.

(** merging integer dictionaries *)
Lemma zseen_merge T c n c' m (d : ndict Z) {V} (f : V -> Z) (g : V -> nat) (new : list (nat * V)) :
  0 <= n -> NoDup (map fst new) -> steps T (Z.to_nat n) c = Some c' ->
  (forall k v, nd_get k new = Some v -> f v = n + Z.of_nat (g v)) ->
  zseen_ok T c n d ->
  (forall q, lastv T c' m q (option_map g (nd_get q new))) ->
  zseen_ok T c (n + Z.of_nat m)
           (fold_left (fun d kv => nd_set (fst kv) (f (snd kv)) d) new d).
Proof.
  intros Hn W E Hf Hd Hnew q. rewrite nd_fold_get by assumption.
  destruct (Hd q) as [H1 H2].
  pose proof (lastv_app T c _ c' m q _ _ E H2 (Hnew q)) as H.
  replace (Z.to_nat (n + Z.of_nat m)) with (Z.to_nat n + m)%nat by lia.
  destruct (nd_get q new) as [v|] eqn:Eq; simpl in *.
  - rewrite (Hf q v Eq). split; [lia|].
    replace (Z.to_nat (n + Z.of_nat (g v))) with (Z.to_nat n + g v)%nat by lia. exact H.
  - split; auto.
Qed.

(** all states entered from here on are in a list *)
Definition only_in (T : table) (c : config) (l : list nat) : Prop :=
  forall j e, steps T j c = Some e -> In (st e) l.
Lemma only_in_invariant T (P : config -> Prop) (l : list nat) :
  (forall c, P c -> exists n d, (0 < n)%nat /\ steps T n c = Some d /\ P d /\
     forall q, In q l <-> exists i e, (i < n)%nat /\ steps T i c = Some e /\ st e = q) ->
  forall c, P c -> only_in T c l.
Proof.
  intros H c Hc j. revert c Hc. induction j as [j IH] using lt_wf_ind. intros c Hc e E.
  destruct (H c Hc) as (n & d & Hn & Ed & Pd & Hl).
  destruct (Nat.lt_ge_cases j n) as [L|L].
  - apply Hl. exists j, e. auto.
  - apply (IH (j - n)%nat ltac:(lia) d Pd). replace j with (n + (j - n))%nat in E by lia.
    rewrite steps_add, Ed in E. exact E.
Qed.

Section Sim.
  Context {Sym St P : Type}.
  Variables (Gd : Prop) (T : table) (M : machine Sym St) (Rp : dcfg Sym St -> config -> Prop)
            (halted : St -> Prop).
  Hypothesis MS : msound Gd T M Rp halted.
  Hypothesis SW : seen_wf M Rp.
  Notation i0 := (m_init_sym M).
  Notation wf := (twf i0).
  Notation den := (tden i0).

  Definition snap (s : sim Z Sym St) : Prop :=
    wf (s_tape s) /\ ct_dir (s_tape s) = s_dir s /\ 0 <= s_steps s /\
    (exists c, steps T (Z.to_nat (s_steps s)) initial = Some c /\
               Rp (den (s_tape s) (s_state s)) c) /\
    oseen_ok T initial (s_steps s) (s_seen s).

  Definition stopped (b : bool) (s : sim Z Sym St) : Prop :=
    exists q a tape ds, s_details s = DCell a q :: ds /\ 0 <= s_steps s /\
      halts_at T initial (Z.to_nat (s_steps s)) q a b tape /\
      0 <= sim_nonzeros zops M s /\ score tape (Z.to_nat (sim_nonzeros zops M s)) /\
      oseen_ok T initial (s_steps s) (s_seen s).

  (** the states reported to recur for ever *)
  Definition inf_states_ok (c : config) (rs : option (list nat)) : Prop :=
    match rs with Some l => forall q, In q l <-> recurs T c q | None => True end.
  Lemma inf_states_steps n c d rs : steps T n c = Some d -> inf_states_ok d rs -> inf_states_ok c rs.
  Proof.
    intros E. destruct rs as [l|]; simpl; auto. intros H q. rewrite (recurs_steps T n c d q E). apply H.
  Qed.

  Definition inf_only (c : config) (rs : option (list nat)) : Prop :=
    match rs with Some l => only_in T c l | None => True end.

  Definition sim_ok (s : sim Z Sym St) : Prop :=
    match s_op s with
    | RUNNING | GAVE_UP => snap s
    | HALT => stopped true s
    | UNDEFINED => stopped false s
    | INF_REPEAT => exists r rs, s_inf s = Some (r, rs) /\
                      ((r = INF_MACRO_STEP -> Gd) -> nonhalting T initial) /\
                      (r <> INF_MACRO_STEP -> inf_states_ok initial rs /\ 0 <= s_steps s /\
                        (exists c, steps T (Z.to_nat (s_steps s)) initial = Some c /\ inf_only c rs) /\
                        oseen_ok T initial (s_steps s) (s_seen s))
    end.

  (** repeating a chain transition *)
  Lemma chain_steps t a q d : t_cond t = RUNNING -> t_state t = q -> t_dir t = d ->
    m_trans M a q d = Some t -> forall k C c,
    Rp C c -> d_st C = q -> d_dir C = d ->
    (forall i, (i < k)%nat -> match d with R => d_r C i | L => d_l C i end = a) ->
    exists c', steps T (t_steps t * k) c = Some c' /\ Rp (chain_t k (t_sym t) C) c' /\
      ((0 < k)%nat -> exists c1, steps T (t_steps t * (k - 1)) c = Some c1 /\
         seen_ok T c1 (t_steps t) (t_seen t)) /\
      (forall x, nd_get x (t_seen t) = None -> forall i e, (i < t_steps t * k)%nat ->
         steps T i c = Some e -> st e <> x).
  Proof.
    intros Hc Hq Hd Hm. induction k as [|k IH]; intros C c HR Es Ed Hi.
    - exists c. rewrite Nat.mul_0_r. simpl. split; [reflexivity|]. split; [exact HR|].
      split; intros; lia.
    - assert (Ef : facing C = a).
      { unfold facing. specialize (Hi O ltac:(lia)). rewrite Ed. destruct d; auto. }
      pose proof (ms_step _ _ _ _ _ MS C c t HR) as H.
      rewrite Ef, Es, Ed in H. specialize (H Hm). unfold outcome in H. rewrite Hc in H.
      destruct H as (_ & Hp & Hs & c1 & E1 & R1).
      simpl chain_t.
      assert (Ea : apply_t C (t_sym t) (t_state t) (t_dir t) =
                   apply_t C (t_sym t) (d_st C) (d_dir C)) by congruence.
      rewrite Ea in R1.
      destruct (IH (apply_t C (t_sym t) (d_st C) (d_dir C)) c1 R1) as (c2 & E2 & R2 & L2 & N2).
      { unfold apply_t. destruct (d_dir C); auto. }
      { unfold apply_t. rewrite Ed. destruct d; auto. }
      { intros i Hik. specialize (Hi (S i) ltac:(lia)). unfold apply_t. rewrite Ed.
        destruct d; simpl; exact Hi. }
      exists c2. split; [|split; [exact R2|split]].
      + replace (t_steps t * S k)%nat with (t_steps t + t_steps t * k)%nat by lia.
        eapply steps_compose; eauto.
      + intros _. destruct k as [|k].
        * exists c. simpl. rewrite Nat.mul_0_r. split; [reflexivity|exact Hs].
        * destruct (L2 ltac:(lia)) as (e & Ee & Se). exists e. split; [|exact Se].
          replace (t_steps t * (S (S k) - 1))%nat with (t_steps t + t_steps t * (S k - 1))%nat by lia.
          eapply steps_compose; eauto.
      + intros x Hx i e Hie Ee. destruct (le_lt_dec (t_steps t) i).
        * apply (N2 x Hx (i - t_steps t)%nat e); [lia|].
          replace i with (t_steps t + (i - t_steps t))%nat in Ee by lia.
          now rewrite steps_add, E1 in Ee.
        * specialize (Hs x). rewrite dict_nd_get, Hx in Hs. now apply (Hs i e).
  Qed.

  Lemma seen_ok_in c n seen d : steps T n c = Some d -> seen_ok T c n seen ->
    forall q, In q (map fst seen) <-> exists i e, (i < n)%nat /\ steps T i c = Some e /\ st e = q.
  Proof.
    intros E H q. specialize (H q). destruct (dict_get q seen) as [j|] eqn:Eq.
    - split.
      + intros _. destruct H as (H1 & (e & H2 & H3) & _). eauto.
      + intros _. rewrite dict_nd_get in Eq. destruct (in_dec Nat.eq_dec q (map fst seen)); auto.
        rewrite nd_get_none in Eq by assumption. discriminate.
    - split.
      + intros Hin. exfalso. rewrite dict_nd_get in Eq. clear -Hin Eq.
        induction seen as [|[k v] seen IH]; simpl in *; [tauto|].
        destruct (Nat.eqb q k) eqn:Ek; [discriminate|]. apply Nat.eqb_neq in Ek. intuition.
      + intros (i & e & Hi & Ee & Hq). exfalso. exact (H i e Hi Ee Hq).
  Qed.

  (** a chain transition over endlessly many equal symbols *)
  Lemma chain_forever t a q d C c : t_cond t = RUNNING -> t_state t = q -> t_dir t = d ->
    m_trans M a q d = Some t -> Rp C c -> d_st C = q -> d_dir C = d ->
    (forall i, match d with R => d_r C i | L => d_l C i end = a) ->
    nonhalting T c /\ (forall q', In q' (map fst (t_seen t)) <-> recurs T c q') /\
    only_in T c (map fst (t_seen t)).
  Proof.
    intros Hc Hq Hd Hm HR Es Ed Hi.
    pose (Inv := fun c => exists C, Rp C c /\ d_st C = q /\ d_dir C = d /\
              forall i, match d with R => d_r C i | L => d_l C i end = a).
    assert (Hstep : forall c, Inv c -> exists n e, (0 < n)%nat /\ steps T n c = Some e /\ Inv e /\
      forall q, In q (map fst (t_seen t)) <-> exists i e, (i < n)%nat /\ steps T i c = Some e /\ st e = q).
    2:{ assert (Pc : Inv c) by (exists C; auto). split.
        - apply (nonhalting_invariant T Inv); auto. intros c' Hc'.
          destruct (Hstep c' Hc') as (n & e & H1 & H2 & H3 & _). eauto.
        - split; [apply (recurs_invariant T Inv); auto|apply (only_in_invariant T Inv); auto]. }
    clear C c HR Es Ed Hi. intros c (C & HR & Es & Ed & Hi).
    assert (Ef : facing C = a).
    { unfold facing. specialize (Hi O). rewrite Ed. destruct d; auto. }
    pose proof (ms_step _ _ _ _ _ MS C c t HR) as H.
    rewrite Ef, Es, Ed in H. specialize (H Hm). unfold outcome in H. rewrite Hc in H.
    destruct H as (_ & Hp & Hs & c1 & E1 & R1).
    exists (t_steps t), c1. split; [exact Hp|]. split; [exact E1|]. split.
    2:{ eapply seen_ok_in; eauto. }
    eexists. split; [exact R1|]. rewrite Hq, Hd. unfold apply_t. rewrite Ed. destruct d; simpl.
    - split; [reflexivity|]. split; [reflexivity|]. intros i. apply (Hi (S i)).
    - split; [reflexivity|]. split; [reflexivity|]. intros i. apply (Hi (S i)).
  Qed.

  Lemma sim_move_ok s : snap s -> s_op s = RUNNING ->
    exists s', sim_move zops M s = Some s' /\ sim_ok s' /\ s_loops s' = s_loops s /\
               (s_op s' = RUNNING -> s_steps s < s_steps s') /\
               (s_seen s <> None -> s_seen s' <> None).
  Proof.
    intros (W & Hdir & Hn & (c & Ec & HR) & Hseen) Hop. unfold sim_move.
    destruct (top_ok i0 (s_tape s) (s_state s) W) as (top & Et & Ef).
    rewrite Et, Ef.
    pose proof (ms_total _ _ _ _ _ MS _ _ HR) as Htot.
    assert (Es : d_st (den (s_tape s) (s_state s)) = s_state s) by reflexivity.
    assert (Ed : d_dir (den (s_tape s) (s_state s)) = s_dir s) by exact Hdir.
    rewrite Es, Ed in Htot.
    destruct (m_trans M (facing (den (s_tape s) (s_state s))) (s_state s) (s_dir s)) as [t|] eqn:Em;
      [|congruence].
    pose proof (ms_step _ _ _ _ _ MS _ c t HR) as Hstep. rewrite Es, Ed in Hstep. specialize (Hstep Em).
    pose proof (SW _ _ t HR) as SW1. rewrite Es, Ed in SW1. specialize (SW1 Em).
    unfold outcome in Hstep.
    destruct (cond_eqb (t_cond t) INF_REPEAT) eqn:Einf.
    { (* repeat inside the macro cell *)
      assert (Ei : t_cond t = INF_REPEAT) by (destruct (t_cond t); try discriminate; auto).
      rewrite Ei in Hstep. eexists. split; [reflexivity|]. unfold sim_ok. simpl.
      split; [|split; [reflexivity|split; [discriminate|auto]]].
      do 2 eexists. split; [reflexivity|]. split; [|congruence].
      intros g. eapply nonhalting_steps; [exact Ec|]. auto. }
    destruct (m_st_eqb M (t_state t) (s_state s) && dir_eqb (t_dir t) (s_dir s)
              && cond_eqb (t_cond t) RUNNING) eqn:Ech.
    { (* chain move *)
      apply andb_true_iff in Ech. destruct Ech as [Ech Ec3].
      apply andb_true_iff in Ech. destruct Ech as [Ec1 Ec2].
      apply (ms_st_eq _ _ _ _ _ MS) in Ec1. apply dir_eqb_eq in Ec2.
      assert (Er : t_cond t = RUNNING) by (destruct (t_cond t); try discriminate; auto).
      rewrite Er in Hstep.
      pose proof (half_ok i0 (s_tape s) (ct_dir (s_tape s)) W) as Hh.
      destruct (half (ct_dir (s_tape s)) (s_tape s)) as [|b rest] eqn:Ehalf; [inversion Hh|].
      destruct b as [bs [z|]].
      - (* finite block *)
        destruct (chain_move_fin (m_sym_eqb M) i0 (ms_sym_eq _ _ _ _ _ MS) (s_tape s) (t_sym t)
                    (s_state s) bs z rest W Ehalf) as (t' & -> & W' & Hz & Ed' & Hden).
        eexists. split; [reflexivity|]. unfold sim_ok. simpl. rewrite Er.
        destruct Hstep as (_ & Hp & _).
        pose proof (hden_top i0 _ _ Hh) as Htop. simpl k_sym in Htop.
        assert (Ebs : bs = facing (den (s_tape s) (s_state s))).
        { unfold ct_top in Et. rewrite Ehalf in Et. injection Et as <-. exact Ef. }
        destruct (chain_steps t bs (s_state s) (s_dir s) Er Ec1 Ec2
                    ltac:(rewrite Ebs; exact Em) (Z.to_nat z) _ c HR Es Ed)
          as (c2 & E2 & R2 & L2 & N2).
        { intros i Hi.
          assert (G : hden i0 (half (ct_dir (s_tape s)) (s_tape s)) i = bs).
          { rewrite Ehalf. simpl. unfold sapp. destruct (nth_error (repeat bs (Z.to_nat z)) i) eqn:E.
            - apply nth_error_In, repeat_spec in E. exact E.
            - apply nth_error_None in E. rewrite repeat_length in E. lia. }
          unfold half in G. rewrite Hdir in G. simpl. destruct (s_dir s); exact G. }
        assert (En : Z.to_nat (s_steps s + Z.of_nat (t_steps t) * z) =
                     (Z.to_nat (s_steps s) + t_steps t * Z.to_nat z)%nat).
        { rewrite Z2Nat.inj_add by nia. rewrite Z2Nat.inj_mul by lia. lia. }
        split; [|split; [reflexivity|split; [intros _; nia|destruct (s_seen s); simpl; congruence]]].
        split; [exact W'|]. split; [simpl; congruence|]. simpl. split; [nia|]. split.
        + exists c2. rewrite En. split; [eapply steps_compose; eauto|].
          eapply (ms_ext _ _ _ _ _ MS); [|exact R2]. apply deq_sym. exact Hden.
        + unfold seen_update. destruct (s_seen s) as [d|]; simpl; auto. simpl in Hseen.
          destruct (L2 ltac:(lia)) as (c1 & E1 & S1).
          set (base := s_steps s + Z.of_nat (t_steps t) * (z + -1)).
          assert (Eb : Z.to_nat base = (Z.to_nat (s_steps s) + t_steps t * (Z.to_nat z - 1))%nat).
          { unfold base. rewrite Z2Nat.inj_add by nia. rewrite Z2Nat.inj_mul by lia. lia. }
          intros q. rewrite (nd_fold_get (fun j => base + Z.of_nat j)) by exact SW1.
          destruct (nd_get q (t_seen t)) as [j|] eqn:Eq.
          * split; [unfold base; nia|]. simpl.
            pose proof (seen_ok_lastv _ _ _ _ S1 q) as S1q. rewrite dict_nd_get, Eq in S1q.
            assert (E3 : steps T (Z.to_nat base) initial = Some c1)
              by (rewrite Eb; eapply steps_compose; eauto).
            replace (Z.to_nat (base + Z.of_nat j)) with (Z.to_nat base + j)%nat by (unfold base; nia).
            destruct S1q as (Sj & (e & Ee & Sq) & Sr). split; [nia|]. split.
            -- exists e. split; auto. eapply steps_compose; eauto.
            -- intros i e' Hi He'. apply (Sr (i - Z.to_nat base)%nat e').
               ++ rewrite En in Hi. rewrite Eb in *. nia.
               ++ replace i with (Z.to_nat base + (i - Z.to_nat base))%nat in He' by lia.
                  now rewrite steps_add, E3 in He'.
          * destruct (Hseen q) as [S2 S3]. split; [exact S2|]. rewrite En.
            apply (lastv_app T initial _ c _ q _ None Ec S3). exact (N2 q Eq).
      - (* infinite block *)
        rewrite (chain_move_inf (m_sym_eqb M) (s_tape s) (t_sym t) bs rest Ehalf).
        eexists. split; [reflexivity|]. unfold sim_ok. simpl.
        split; [|split; [reflexivity|split; [discriminate|auto]]].
        do 2 eexists. split; [reflexivity|].
        assert (Ebs : bs = facing (den (s_tape s) (s_state s))).
        { unfold ct_top in Et. rewrite Ehalf in Et. injection Et as <-. exact Ef. }
        destruct (chain_forever t bs (s_state s) (s_dir s) _ c Er Ec1 Ec2
                 ltac:(rewrite Ebs; exact Em) HR Es Ed) as (Hnh & Hrec & Honly).
        2:{ split; [intros _; eapply nonhalting_steps; [exact Ec|exact Hnh]|].
            intros _. split; [eapply inf_states_steps; [exact Ec|]; exact Hrec|].
            split; [exact Hn|]. split; [exists c; split; [exact Ec|exact Honly]|exact Hseen]. }
        intros i. assert (G : hden i0 (half (ct_dir (s_tape s)) (s_tape s)) i = bs)
          by (rewrite Ehalf; reflexivity).
        unfold half in G. rewrite Hdir in G. simpl. destruct (s_dir s); exact G. }
    destruct (single_move_ok (m_sym_eqb M) i0 (ms_sym_eq _ _ _ _ _ MS) (s_tape s) (t_sym t) (t_dir t)
                (s_state s) (t_state t) W) as (t' & Et' & W' & Ed' & Hden).
    assert (Hsn : forall m (Hm : m = t_steps t),
       seen_ok T c m (t_seen t) ->
       oseen_ok T initial (s_steps s + Z.of_nat (t_steps t))
         (seen_update zops (s_seen s) (s_steps s) (t_seen t))).
    { intros m -> Sk. unfold seen_update. destruct (s_seen s) as [d|]; simpl; auto. simpl in Hseen.
      apply (zseen_merge T initial (s_steps s) c (t_steps t) d
               (fun j => s_steps s + Z.of_nat j) (fun j => j) (t_seen t)); auto.
      intros q. specialize (Sk q). rewrite dict_nd_get in Sk.
      destruct (nd_get q (t_seen t)); exact Sk. }
    assert (En : Z.to_nat (s_steps s + Z.of_nat (t_steps t)) = (Z.to_nat (s_steps s) + t_steps t)%nat)
      by lia.
    assert (Hst : forall b, stops T c (t_steps t) (t_details t) (t_seen t) b
              (sc M (apply_t (den (s_tape s) (s_state s)) (t_sym t) (t_state t) (t_dir t))) ->
              stopped b (Sim t' (t_state t) (t_dir t) (s_steps s + Z.of_nat (t_steps t))
                      (s_loops s) (t_cond t) (t_details t)
                      (seen_update zops (s_seen s) (s_steps s) (t_seen t)) (s_inf s) (s_rules s))).
    { intros b (q & a & tape & ds & Eds & Hh & Hsc & Sk).
      exists q, a, tape, ds. simpl. split; [exact Eds|]. split; [lia|]. rewrite En.
      split; [eapply halts_at_steps; eauto|].
      unfold sim_nonzeros. simpl.
      destruct (nonzeros_ok i0 (m_eval_sym M) (ms_eval_init _ _ _ _ _ MS) t'
                  (m_eval_st M (t_state t)) W') as (N0 & x & y & Sx & Sy & Exy).
      split; [exact N0|]. split; [|eapply Hsn; eauto].
      apply Hsc. rewrite Exy. destruct Hden as (D1 & D2 & D3 & D4). simpl in *.
      exists x, y. split; [eapply ssum_ext; eauto|]. split; [eapply ssum_ext; eauto|].
      rewrite <- D3. lia. }
    destruct (t_cond t) eqn:Ecd; simpl negb; cbv iota; try discriminate.
    - (* running, not a chain move *)
      rewrite Et'. eexists. split; [reflexivity|]. unfold sim_ok. simpl.
      destruct Hstep as (_ & Hp & Sk & c' & Ec' & R').
      split; [|split; [reflexivity|split; [intros _; lia|destruct (s_seen s); simpl; congruence]]].
      split; [exact W'|]. split; [exact Ed'|]. simpl. split; [lia|]. split.
      + exists c'. rewrite En. split; [eapply steps_compose; eauto|].
        eapply (ms_ext _ _ _ _ _ MS); [|exact R']. apply deq_sym. exact Hden.
      + eapply Hsn; eauto.
    - rewrite Et'. eexists. split; [reflexivity|]. unfold sim_ok. simpl.
      split; [|split; [reflexivity|split; [discriminate|destruct (s_seen s); simpl; congruence]]].
      apply Hst. apply Hstep.
    - rewrite Et'. eexists. split; [reflexivity|]. unfold sim_ok. simpl.
      split; [|split; [reflexivity|split; [discriminate|destruct (s_seen s); simpl; congruence]]].
      apply Hst. apply Hstep.
    - eexists. split; [reflexivity|]. unfold sim_ok. simpl.
      split; [|split; [reflexivity|split; [discriminate|auto]]].
      split; [exact W|]. split; [exact Hdir|]. simpl. split; [exact Hn|]. split; [eauto|exact Hseen].
  Qed.

  (** ** with a sound prover *)
  Variable lap : P -> ctape Z Sym -> St -> nat -> option (P * prover_result Z Sym).
  Variable Pok : P -> Prop.

  Definition result_ok (tape : ctape Z Sym) (q : St) (c : config) (r : prover_result Z Sym) : Prop :=
    match r with
    | PNothing => True
    | PInf rs => nonhalting T c /\ inf_states_ok c rs /\ inf_only c rs
    | PApply tape' n seen =>
      wf tape' /\ ct_dir tape' = ct_dir tape /\ 0 < n /\
      (exists c', steps T (Z.to_nat n) c = Some c' /\ Rp (den tape' q) c') /\
      match seen with Some d => NoDup (map fst d) /\ zseen_ok T c n d | None => True end
    end.

  Definition prover_ok : Prop := forall p tape q loops c,
    Pok p -> wf tape -> Rp (den tape q) c ->
    exists p' r, lap p tape q loops = Some (p', r) /\ Pok p' /\ result_ok tape q c r.

  Hypothesis PO : prover_ok.

  Lemma sim_step_ok p s : Pok p -> sim_ok s ->
    exists p' s', sim_step zops M lap (p, s) = Some (p', s') /\ Pok p' /\ sim_ok s' /\
      (s_op s = RUNNING -> s_loops s' = S (s_loops s)) /\
      (s_op s = RUNNING -> s_op s' = RUNNING -> s_steps s < s_steps s') /\
      (s_op s <> RUNNING -> (p', s') = (p, s)).
  Proof.
    intros Hp H. unfold sim_step. destruct (cond_eqb (s_op s) RUNNING) eqn:Er; simpl negb; cbv iota.
    2:{ exists p, s. assert (s_op s <> RUNNING) by (intros E; rewrite E in Er; discriminate).
        repeat (split; [solve [auto|congruence]|]). auto. }
    assert (Eo : s_op s = RUNNING) by (destruct (s_op s); try discriminate; auto).
    unfold sim_ok in H. rewrite Eo in H.
    assert (H1 : snap (loop_inc s)) by exact H.
    pose proof H1 as (W & Hdir & Hn & (c & Ec & HR) & Hseen).
    destruct (PO p _ _ (s_loops (loop_inc s) - 1)%nat c Hp W HR) as (p' & r & -> & Hp' & Hr).
    destruct r as [|tape' n seen|rs]; simpl in Hr.
    - destruct (sim_move_ok _ H1 Eo) as (s' & -> & Hs' & El & Hpos & _).
      exists p', s'. split; [reflexivity|]. split; [exact Hp'|]. split; [exact Hs'|].
      split; [intros _; exact El|]. split; [intros _; exact Hpos|congruence].
    - destruct Hr as (W' & Ed' & Hpos & (c' & Ec' & R') & Hsn).
      eexists p', _. split; [reflexivity|]. split; [exact Hp'|]. split; [|split; [reflexivity|]].
      + unfold sim_ok. simpl. rewrite Eo. split; [exact W'|].
        split; [simpl; rewrite Ed'; exact Hdir|]. simpl. simpl in Hn. split; [lia|].
        simpl in Ec. assert (En : Z.to_nat (s_steps s + n) = (Z.to_nat (s_steps s) + Z.to_nat n)%nat) by lia.
        split.
        * exists c'. rewrite En. split; [eapply steps_compose; eauto|exact R'].
        * unfold seen_merge. simpl in Hseen. destruct (s_seen s) as [d|]; [|exact I].
          destruct seen as [[|kv new]|]; [exact I| |exact I].
          destruct Hsn as [Nd Hz]. simpl oseen_ok in *. cbn [n_add zops].
          replace (s_steps s + n) with (s_steps s + Z.of_nat (Z.to_nat n)) by lia.
          apply (zseen_merge T initial (s_steps s) c (Z.to_nat n) d
                   (fun v => s_steps s + v) Z.to_nat (kv :: new) Hn Nd Ec).
          -- intros k v Ek. destruct (Hz k) as [Hv _]. rewrite Ek in Hv. lia.
          -- exact Hseen.
          -- intros q. apply (Hz q).
      + split; [|congruence]. intros _ _. simpl. lia.
    - eexists p', _. split; [reflexivity|]. split; [exact Hp'|].
      split; [|split; [reflexivity|split; [intros _; discriminate|congruence]]].
      unfold sim_ok. simpl. do 2 eexists. split; [reflexivity|]. destruct Hr as (Hr1 & Hr2 & Hr3). split; intros _.
      + eapply nonhalting_steps; [exact Ec|exact Hr1].
      + split; [eapply inf_states_steps; [exact Ec|exact Hr2]|]. split; [exact Hn|].
        split; [exists c; split; [exact Ec|exact Hr3]|exact Hseen].
  Qed.

  Lemma sim_init_ok : sim_ok (sim_init zops M).
  Proof.
    unfold sim_ok, sim_init; simpl. split; [apply init_wf|]. split; [reflexivity|].
    split; [simpl; lia|]. split; [|apply zseen_nil].
    exists initial. split; [reflexivity|]. apply (ms_init _ _ _ _ _ MS).
  Qed.

  Lemma sim_iter_ok n : forall p s, Pok p -> sim_ok s ->
    exists p' s', sim_iter zops M lap n (p, s) = Some (p', s') /\ Pok p' /\ sim_ok s'.
  Proof.
    induction n as [|n IH]; intros p s Hp Hs.
    - exists p, s. auto.
    - destruct (sim_step_ok p s Hp Hs) as (p' & s' & E & Hp' & Hs' & _).
      cbn [sim_iter]. rewrite E. auto.
  Qed.

  (** [loop_seek] and [seek] terminate and are iterations of [step] *)
  Lemma loop_seek_ok cutoff : forall f p s, Pok p -> sim_ok s ->
    (cutoff <= f + s_loops s)%nat ->
    exists n ps, loop_seek_loop zops M lap f cutoff (p, s) = Some ps /\
      sim_iter zops M lap n (p, s) = Some ps /\
      (s_op (snd ps) = RUNNING -> (cutoff <= s_loops (snd ps))%nat).
  Proof.
    induction f as [|f IH]; intros p s Hp Hs Hf; cbn [loop_seek_loop snd].
    - destruct (Nat.ltb (s_loops s) cutoff) eqn:E; [apply Nat.ltb_lt in E; lia|]. simpl.
      exists O, (p, s). split; [reflexivity|]. split; [reflexivity|]. simpl. lia.
    - destruct (Nat.ltb (s_loops s) cutoff && cond_eqb (s_op s) RUNNING) eqn:E.
      + apply andb_true_iff in E. destruct E as [E1 E2]. apply Nat.ltb_lt in E1.
        assert (Eo : s_op s = RUNNING) by (destruct (s_op s); try discriminate; auto).
        destruct (sim_step_ok p s Hp Hs) as (p' & s' & Es & Hp' & Hs' & El & _).
        rewrite Es. specialize (El Eo).
        destruct (IH p' s' Hp' Hs' ltac:(lia)) as (n & ps & E3 & E4 & E5).
        exists (S n), ps. split; [exact E3|]. split; [|exact E5]. cbn [sim_iter]. now rewrite Es.
      + exists O, (p, s). split; [reflexivity|]. split; [reflexivity|]. simpl. intros Eo.
        rewrite Eo in E. simpl in E. rewrite andb_true_r in E. apply Nat.ltb_ge in E. exact E.
  Qed.

  Lemma seek_ok cutoff : forall f p s, Pok p -> sim_ok s ->
    (s_op s = RUNNING -> cutoff <= Z.of_nat f + s_steps s) ->
    exists n ps, seek_loop M lap f cutoff (p, s) = Some ps /\
      sim_iter zops M lap n (p, s) = Some ps /\
      (s_op (snd ps) = RUNNING -> cutoff <= s_steps (snd ps)).
  Proof.
    induction f as [|f IH]; intros p s Hp Hs Hf; cbn [seek_loop snd].
    - destruct ((s_steps s <? cutoff) && cond_eqb (s_op s) RUNNING) eqn:E.
      + apply andb_true_iff in E. destruct E as [E1 E2]. apply Z.ltb_lt in E1.
        assert (Eo : s_op s = RUNNING) by (destruct (s_op s); try discriminate; auto).
        specialize (Hf Eo). lia.
      + exists O, (p, s). split; [reflexivity|]. split; [reflexivity|]. simpl. intros Eo.
        specialize (Hf Eo). lia.
    - destruct ((s_steps s <? cutoff) && cond_eqb (s_op s) RUNNING) eqn:E.
      + apply andb_true_iff in E. destruct E as [E1 E2]. apply Z.ltb_lt in E1.
        assert (Eo : s_op s = RUNNING) by (destruct (s_op s); try discriminate; auto).
        destruct (sim_step_ok p s Hp Hs) as (p' & s' & Es & Hp' & Hs' & _ & El & _).
        rewrite Es. specialize (El Eo). specialize (Hf Eo).
        destruct (IH p' s' Hp' Hs' ltac:(intros; specialize (El H); lia)) as (n & ps & E3 & E4 & E5).
        exists (S n), ps. split; [exact E3|]. split; [|exact E5]. cbn [sim_iter]. now rewrite Es.
      + exists O, (p, s). split; [reflexivity|]. split; [reflexivity|]. simpl. intros Eo.
        rewrite Eo in E. simpl in E. rewrite andb_true_r in E. apply Z.ltb_ge in E. exact E.
  Qed.

  (** score of a running snapshot *)
  Lemma snap_score s : snap s ->
    0 <= sim_nonzeros zops M s /\
    exists c, steps T (Z.to_nat (s_steps s)) initial = Some c /\
              score (tp c) (Z.to_nat (sim_nonzeros zops M s)).
  Proof.
    intros (W & _ & _ & (c & Ec & HR) & _). unfold sim_nonzeros.
    destruct (nonzeros_ok i0 (m_eval_sym M) (ms_eval_init _ _ _ _ _ MS) (s_tape s)
                (m_eval_st M (s_state s)) W) as (N0 & x & y & Sx & Sy & Exy).
    split; [exact N0|]. exists c. split; [exact Ec|].
    apply (ms_score _ _ _ _ _ MS _ _ _ HR). exists x, y. rewrite Exy. auto.
  Qed.
End Sim.
