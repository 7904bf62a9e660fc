(** * Macro machines over a simple machine, in terms of tape positions *)
Require Import ZArith List Lia Bool Arith.
From Verif Require Import Spec_TM M_Turing_Machine P_Stream P_SimLimited P_Macro P_Repeat P_Window.
Import ListNotations.
Open Scope Z_scope.

(** Blocks [r 0, r 1, ...] lie to the right of position [o], blocks [l 0, l 1, ...]
    to the left; every block has [k] cells, written left to right. *)
Definition blocks_at (k : nat) (l r : nat -> list nat) (o : Z) (t : Z -> nat) : Prop :=
  forall i, length (l i) = k /\ length (r i) = k /\
            shows (o + Z.of_nat i * Z.of_nat k) (r i) t /\
            shows (o - (Z.of_nat i + 1) * Z.of_nat k) (l i) t.

Definition small (m : nat) (l r : nat -> list nat) : Prop :=
  forall i a, In a (l i) \/ In a (r i) -> (a < m)%nat.

(** head position: at the near end of the faced block, or [offset] cells into it *)
Definition block_head (k : nat) (s : bstate sstate) (d : dir) (o : Z) : Z :=
  match s with
  | Plain _ => match d with R => o | L => o - 1 end
  | OffsetStart _ off => match d with R => o + Z.of_nat off | L => o - Z.of_nat k + Z.of_nat off end
  end.

(** The macro configuration [C] stands for the base configuration [c]. *)
Definition block_denotes (n m k : nat) (C : dcfg (list nat) (bstate sstate)) (c : config) : Prop :=
  block_base (d_st C) = SRun (st c) /\ (st c < n)%nat /\
  (match d_st C with OffsetStart _ off => (off < k)%nat | Plain _ => True end) /\
  small m (d_l C) (d_r C) /\
  exists o, blocks_at k (d_l C) (d_r C) o (tp c) /\ hd c = block_head k (d_st C) (d_dir C) o.

(** the faced block *)
Definition faced_start (k : nat) (d : dir) (o : Z) : Z :=
  match d with R => o | L => o - Z.of_nat k end.

Lemma shows_sub o (t t' : Z -> nat) tape :
  (forall z, o <= z < o + Z.of_nat (length tape) -> t' z = t z) ->
  shows o tape t -> shows o tape t'.
Proof.
  intros H Hs i a Hi. rewrite H.
  - now apply Hs.
  - assert (i < length tape)%nat by (apply nth_error_Some; congruence). lia.
Qed.

Lemma nth_error_skipn' {A} (l : list A) x i : nth_error (skipn x l) i = nth_error l (x + i).
Proof. revert l. induction x; destruct l; simpl; auto. destruct i; reflexivity. Qed.

Section BlockSpec.
  Context (n m : nat) (tab : ttable) (W : wf_ttable n m tab) (k : nat) (Hk : (0 < k)%nat).
  Let T := table_of tab.

  (** one macro transition, as seen by the base machine *)
  Definition block_answer (C : dcfg (list nat) (bstate sstate)) (c : config) (o : Z) (max : nat)
             (t : transition (list nat) (bstate sstate)) : Prop :=
    let w := faced_start k (d_dir C) o in
    let C' := apply_t C (t_sym t) (t_state t) (t_dir t) in
    match t_cond t with
    | RUNNING => exists c', steps T (t_steps t) c = Some c' /\ (0 < t_steps t)%nat /\
        stays T c w k (t_steps t) /\ ~ in_window w k c' /\
        block_denotes n m k C' c'
    | HALT => exists q s tape o', halts_at T c (t_steps t) q s true tape /\
        (exists rest, t_details t = DCell s q :: rest) /\
        stays T c w k (t_steps t) /\ blocks_at k (d_l C') (d_r C') o' tape
    | UNDEFINED => exists q s tape o', halts_at T c (t_steps t) q s false tape /\
        (exists rest, t_details t = DCell s q :: rest) /\
        stays T c w k (t_steps t) /\ blocks_at k (d_l C') (d_r C') o' tape
    | INF_REPEAT => forall i, exists ci, steps T i c = Some ci /\ in_window w k ci
    | GAVE_UP => exists c', steps T max c = Some c' /\ stays T c w k (S max)
    end.

  Lemma blocks_apply (C : dcfg (list nat) (bstate sstate)) o t t' a s d :
    blocks_at k (d_l C) (d_r C) o t -> length a = k ->
    shows (faced_start k (d_dir C) o) a t' ->
    same_outside (faced_start k (d_dir C) o) k t t' ->
    blocks_at k (d_l (apply_t C a s d)) (d_r (apply_t C a s d))
      (match d_dir C, d with
       | R, R => o + Z.of_nat k | R, L => o | L, R => o | L, L => o - Z.of_nat k end) t'.
  Proof.
    intros Hb Ha Hs Ho i. destruct (Hb i) as (L1 & R1 & S1 & S2).
    destruct (Hb (S i)) as (L2 & R2 & S3 & S4).
    assert (Hp : forall j, 0 <= Z.of_nat j * Z.of_nat k) by (intros; nia).
    unfold apply_t, faced_start in *.
    destruct (d_dir C), d; simpl d_l; simpl d_r; unfold scons, stl.
    - split; [exact L2|]. split; [destruct i; [exact Ha|apply (Hb i)]|]. split.
      + destruct i as [|i].
        * replace (o - Z.of_nat k + Z.of_nat 0 * Z.of_nat k) with (o - Z.of_nat k) by lia. exact Hs.
        * destruct (Hb i) as (_ & Ri & Si & _).
          replace (o - Z.of_nat k + Z.of_nat (S i) * Z.of_nat k)
            with (o + Z.of_nat i * Z.of_nat k) by nia.
          eapply shows_sub; [|exact Si]. intros z Hz. apply Ho. specialize (Hp i). lia.
      + replace (o - Z.of_nat k - (Z.of_nat i + 1) * Z.of_nat k)
          with (o - (Z.of_nat (S i) + 1) * Z.of_nat k) by nia.
        eapply shows_sub; [|exact S4]. intros z Hz. apply Ho. rewrite L2 in Hz.
        specialize (Hp i). nia.
    - split; [destruct i; [exact Ha|apply (Hb (S i))]|]. split; [exact R1|]. split.
      + eapply shows_sub; [|exact S1]. intros z Hz. apply Ho. specialize (Hp i). lia.
      + destruct i as [|i].
        * replace (o - (Z.of_nat 0 + 1) * Z.of_nat k) with (o - Z.of_nat k) by lia. exact Hs.
        * eapply shows_sub; [|exact S2]. intros z Hz. apply Ho. rewrite L1 in Hz.
          specialize (Hp i). nia.
    - split; [exact L1|]. split; [destruct i; [exact Ha|apply (Hb (S i))]|]. split.
      + destruct i as [|i].
        * replace (o + Z.of_nat 0 * Z.of_nat k) with o by lia. exact Hs.
        * eapply shows_sub; [|exact S1]. intros z Hz. apply Ho. specialize (Hp i). nia.
      + eapply shows_sub; [|exact S2]. intros z Hz. apply Ho. rewrite L1 in Hz.
        specialize (Hp i). nia.
    - split; [destruct i; [exact Ha|apply (Hb i)]|]. split; [exact R2|]. split.
      + replace (o + Z.of_nat k + Z.of_nat i * Z.of_nat k)
          with (o + Z.of_nat (S i) * Z.of_nat k) by nia.
        eapply shows_sub; [|exact S3]. intros z Hz. apply Ho. specialize (Hp i). nia.
      + destruct i as [|i].
        * replace (o + Z.of_nat k - (Z.of_nat 0 + 1) * Z.of_nat k) with o by lia. exact Hs.
        * destruct (Hb i) as (Li & _ & _ & Si).
          replace (o + Z.of_nat k - (Z.of_nat (S i) + 1) * Z.of_nat k)
            with (o - (Z.of_nat i + 1) * Z.of_nat k) by nia.
          eapply shows_sub; [|exact Si]. intros z Hz. apply Ho. rewrite Li in Hz.
          specialize (Hp i). nia.
  Qed.

  Lemma small_apply (C : dcfg (list nat) (bstate sstate)) a s d :
    small m (d_l C) (d_r C) -> (forall x, In x a -> (x < m)%nat) ->
    small m (d_l (apply_t C a s d)) (d_r (apply_t C a s d)).
  Proof.
    intros H Ha i x. unfold apply_t, scons, stl.
    destruct d, (d_dir C); simpl; destruct i; intros [Hx|Hx]; auto;
      eapply H; eauto.
  Qed.

  Theorem block_exact max C c : block_denotes n m k C c ->
    exists t o, block_trans (simple_machine tab) k max (facing C) (d_st C) (d_dir C) = Some t /\
      blocks_at k (d_l C) (d_r C) o (tp c) /\ block_answer C c o max t.
  Proof.
    intros (Hs & Hn & Hoff & Hm & o & Hb & Hh).
    set (w := faced_start k (d_dir C) o).
    set (pos := match d_st C with
                | OffsetStart _ off => Z.of_nat off
                | Plain _ => match d_dir C with R => 0 | L => Z.of_nat k - 1 end end).
    assert (Hlen : length (facing C) = k) by (unfold facing; destruct (d_dir C); apply (Hb O)).
    assert (Hpos : 0 <= pos < Z.of_nat k)
      by (unfold pos; destruct (d_st C); [destruct (d_dir C)|]; lia).
    assert (Hhd : hd c = w + pos).
    { rewrite Hh. unfold w, pos, block_head, faced_start.
      destruct (d_st C), (d_dir C); lia. }
    assert (Hsh : shows w (facing C) (tp c)).
    { destruct (Hb O) as (_ & _ & S1 & S2). unfold w, facing, faced_start.
      destruct (d_dir C).
      - replace (o - Z.of_nat k) with (o - (Z.of_nat 0 + 1) * Z.of_nat k) by lia. exact S2.
      - replace o with (o + Z.of_nat 0 * Z.of_nat k) by lia. exact S1. }
    assert (Hsm : forall a, In a (facing C) -> (a < m)%nat).
    { intros a Ha. unfold facing in Ha. apply (Hm O). destruct (d_dir C); auto. }
    destruct (window_exact n m tab W w k c max (st c) (facing C) pos (d_dir C))
      as (t & Et & Hl & Ha); auto.
    (* symbols stay small *)
    assert (Hout : t_cond t = RUNNING -> forall x, In x (t_sym t) -> (x < m)%nat).
    { intros Hc x Hx.
      destruct (sim_loop_end (simple_machine tab) (M_sym_eq n m tab W) (M_st_eq n m tab W)
                  (simple_one n m tab W) max (S max) (WCfg (SRun (st c)) (d_dir C) pos (facing C))
                  0 0 [] None 128 t ltac:(lia) Et)
        as (i & w' & sym & tr & A1 & A2 & A3 & A4 & A5 & A6 & A7 & A8).
      assert (H0 : wrel n m w k c (WCfg (SRun (st c)) (d_dir C) pos (facing C)) c).
      { repeat split; simpl; auto; try lia. }
      destruct (wrel_run n m tab W w k c i _ _ _ H0 A1) as (c1 & _ & Hr).
      destruct (wrel_trans n m tab W w k c _ _ Hr) as (tr' & Eg & Et' & Hok & _).
      rewrite A2 in Eg. injection Eg as ->. rewrite A3 in Et'. injection Et' as ->.
      rewrite A4 in Hx. apply In_lset' in Hx. destruct Hr as (_ & _ & _ & _ & _ & R6 & _).
      destruct Hx as [->|Hx]; [|auto].
      simpl in A8. destruct A8 as [(B1 & _)|[(B1 & _)|[(B1 & B2 & _)|(B1 & B2 & _)]]]; try congruence.
      destruct Hok as (_ & _ & Hcc). rewrite B2 in Hcc. tauto. }
    exists (Trans (t_cond t) (t_details t) (t_sym t) (Plain (t_state t))
                  (t_dir t) (t_steps t) (t_seen t)), o.
    split.
    { unfold block_trans, pos in *. unfold block_base in Hs.
      destruct (d_st C); rewrite Hs, Et; reflexivity. }
    split; [exact Hb|].
    unfold block_answer, window_answer in *. fold w. cbn [t_cond t_steps t_sym t_state t_dir t_details].
    fold T in Ha. destruct (t_cond t).
    - destruct Ha as (c' & A1 & A2 & A3 & A4 & A5 & A6). exists c'.
      split; [exact A1|]. split.
      { destruct (t_steps t); [|lia]. simpl in A1. injection A1 as <-.
        rewrite Hhd in A4. destruct (t_dir t); lia. }
      split; [exact A2|]. split.
      { unfold in_window. rewrite A4. destruct (t_dir t); lia. }
      split; [unfold apply_t; destruct (t_dir t); simpl; exact A3|].
      split; [|split; [unfold apply_t; destruct (t_dir t); simpl; exact I|split]].
      + (* state range *)
        destruct (sim_loop_end (simple_machine tab) (M_sym_eq n m tab W) (M_st_eq n m tab W)
                  (simple_one n m tab W) max (S max) (WCfg (SRun (st c)) (d_dir C) pos (facing C))
                  0 0 [] None 128 t ltac:(lia) Et)
          as (i & w' & sym & tr & B1 & B2 & B3 & B4 & B5 & B6 & B7 & B8).
        assert (H0 : wrel n m w k c (WCfg (SRun (st c)) (d_dir C) pos (facing C)) c).
        { repeat split; simpl; auto; try lia. }
        destruct (wrel_run n m tab W w k c i _ _ _ H0 B1) as (c1 & _ & Hr).
        destruct (wrel_trans n m tab W w k c _ _ Hr) as (tr' & Eg & Et' & Hok & _).
        rewrite B2 in Eg. injection Eg as ->. rewrite B3 in Et'. injection Et' as ->.
        destruct Hok as (_ & _ & Hcc). rewrite B5 in A3.
        destruct (t_cond tr'); try contradiction.
        * destruct Hcc as (_ & _ & q & Hq & Hqn). rewrite Hq in A3. injection A3 as <-. exact Hqn.
        * destruct Hcc as (_ & Hq). rewrite Hq in A3. discriminate.
        * destruct Hcc as (_ & Hq). rewrite Hq in A3. discriminate.
      + apply small_apply; auto.
      + eexists. split; [eapply blocks_apply; eauto|].
        rewrite A4. unfold apply_t, block_head, w, faced_start.
        destruct (d_dir C), (t_dir t); simpl; lia.
    - destruct Ha as (q & s & tape & rest & A1 & A2 & A3 & A4 & A5).
      exists q, s, tape. eexists. split; [exact A1|]. split; [eauto|]. split; [exact A2|].
      eapply blocks_apply; eauto.
    - exact Ha.
    - destruct Ha as (q & s & tape & rest & A1 & A2 & A3 & A4 & A5).
      exists q, s, tape. eexists. split; [exact A1|]. split; [eauto|]. split; [exact A2|].
      eapply blocks_apply; eauto.
    - exact Ha.
  Qed.

  (** the specification relation implies the layered one used for stacks *)
  Lemma blocks_flat C c : block_denotes n m k C c -> Rblock (simple_machine tab) (Rsimple n m) k C c.
  Proof.
    intros (Hs & Hn & Hoff & Hm & o & Hb & Hh). split; [|split].
    - intros i. split; apply (Hb i).
    - exact Hoff.
    - set (p := block_pos k (d_st C) (d_dir C)).
      assert (Hp : 0 <= p < Z.of_nat k)
        by (unfold p, block_pos; destruct (d_st C); [destruct (d_dir C)|]; lia).
      set (w := faced_start k (d_dir C) o).
      assert (Hhd : hd c = w + p).
      { rewrite Hh. unfold w, p, block_head, block_pos, faced_start.
        destruct (d_st C), (d_dir C); lia. }
      assert (Hlen : length (facing C) = k) by (unfold facing; destruct (d_dir C); apply (Hb O)).
      assert (Hfs : shows w (facing C) (tp c)).
      { destruct (Hb O) as (_ & _ & S1 & S2). unfold w, facing, faced_start.
        destruct (d_dir C).
        - replace (o - Z.of_nat k) with (o - (Z.of_nat 0 + 1) * Z.of_nat k) by lia. exact S2.
        - replace o with (o + Z.of_nat 0 * Z.of_nat k) by lia. exact S1. }
      assert (Er : forall i, tp c (o + Z.of_nat i) =
                expr (simple_machine tab) k (d_r C) i /\
                tp c (o - 1 - Z.of_nat i) = expl (simple_machine tab) k (d_l C) i).
      { intros i. unfold expr, expl.
        pose proof (Nat.div_mod i k ltac:(lia)) as Ei.
        pose proof (Nat.mod_upper_bound i k ltac:(lia)) as Em.
        destruct (Hb (i / k)%nat) as (Li & Ri & S1 & S2). split.
        - symmetry. apply nth_error_nth.
          destruct (nth_error (d_r C (i / k)%nat) (i mod k)) as [a|] eqn:E.
          + rewrite <- (S1 _ _ E). f_equal. f_equal. nia.
          + apply nth_error_None in E. lia.
        - rewrite rev_nth by lia. symmetry. apply nth_error_nth.
          destruct (nth_error (d_l C (i / k)%nat) (length (d_l C (i / k)%nat) - S (i mod k)))
            as [a|] eqn:E.
          + rewrite <- (S2 _ _ E). f_equal. f_equal. rewrite Li. nia.
          + apply nth_error_None in E. lia. }
      assert (Esm : forall i, (expr (simple_machine tab) k (d_r C) i < m)%nat /\
                              (expl (simple_machine tab) k (d_l C) i < m)%nat).
      { intros i. destruct W as (_ & Wm & _). unfold expr, expl. split.
        - destruct (nth_in_or_default (i mod k) (d_r C (i / k)%nat) 0%nat) as [H|H].
          + eapply Hm; eauto.
          + simpl. rewrite H. exact Wm.
        - destruct (nth_in_or_default (i mod k) (rev (d_l C (i / k)%nat)) 0%nat) as [H|H].
          + apply in_rev in H. eapply Hm; eauto.
          + simpl. rewrite H. exact Wm. }
      (* the window splits the faced block at the head *)
      split; [exact Hs|]. split; [exact Hn|].
      set (x := winpos (d_dir C) p).
      assert (Hx : (x <= k)%nat) by (unfold x, winpos; destruct (d_dir C); lia).
      (* boundary position *)
      set (b := w + Z.of_nat x).
      assert (Hcells : forall i,
        tp c (b + Z.of_nat i) = d_r (flatten (simple_machine tab) k C) i /\
        tp c (b - 1 - Z.of_nat i) = d_l (flatten (simple_machine tab) k C) i).
      { intros i. unfold flatten, win; simpl. fold p. fold x. unfold sapp. split.
        - destruct (nth_error (skipn x (facing C)) i) as [a|] eqn:E.
          + rewrite nth_error_skipn' in E. rewrite <- (Hfs _ _ E). f_equal. unfold b. lia.
          + apply nth_error_None in E. rewrite skipn_length, Hlen in *.
            unfold block_ro. set (j := (i - (k - x))%nat).
            assert (Hb2 : b + Z.of_nat i = w + Z.of_nat k + Z.of_nat j) by (unfold b, j; lia).
            rewrite Hb2. unfold w, faced_start. destruct (d_dir C).
            * replace (o - Z.of_nat k + Z.of_nat k + Z.of_nat j) with (o + Z.of_nat j) by lia.
              apply (Er j).
            * unfold expr, stl.
              destruct (Er (k + j)%nat) as [E1 _].
              replace (o + Z.of_nat k + Z.of_nat j) with (o + Z.of_nat (k + j)) by lia.
              rewrite E1. unfold expr.
              replace (k + j)%nat with (j + 1 * k)%nat by lia.
              rewrite Nat.div_add, Nat.mod_add by lia. f_equal. f_equal. lia.
        - destruct (nth_error (rev (firstn x (facing C))) i) as [a|] eqn:E.
          + assert (Hi : (i < x)%nat).
            { assert (H : nth_error (rev (firstn x (facing C))) i <> None) by congruence.
              apply nth_error_Some in H. rewrite rev_length, firstn_length in H. lia. }
            apply nth_error_nth with (d := 0%nat) in E.
            rewrite rev_nth in E by (rewrite firstn_length; lia).
            rewrite firstn_length, Hlen in E. rewrite Nat.min_l in E by lia.
            assert (E' : nth_error (facing C) (x - S i) = Some a).
            { rewrite <- E. rewrite <- (firstn_skipn x (facing C)) at 1.
              rewrite nth_error_app1 by (rewrite firstn_length; lia).
              apply nth_error_nth'. rewrite firstn_length; lia. }
            rewrite <- (Hfs _ _ E'). f_equal. unfold b. lia.
          + apply nth_error_None in E. rewrite rev_length, firstn_length, Hlen in *.
            rewrite Nat.min_l in * by lia.
            unfold block_lo. set (j := (i - x)%nat).
            assert (Hb2 : b - 1 - Z.of_nat i = w - 1 - Z.of_nat j) by (unfold b, j; lia).
            rewrite Hb2. unfold w, faced_start. destruct (d_dir C).
            * unfold expl, stl.
              destruct (Er (k + j)%nat) as [_ E1].
              replace (o - Z.of_nat k - 1 - Z.of_nat j) with (o - 1 - Z.of_nat (k + j)) by lia.
              rewrite E1. unfold expl.
              replace (k + j)%nat with (j + 1 * k)%nat by lia.
              rewrite Nat.div_add, Nat.mod_add by lia. do 3 f_equal. lia.
            * apply (Er j). }
      assert (Hall : forall z, (tp c z < m)%nat).
      { intros z. destruct (Z_lt_le_dec z o).
        - destruct (Er (Z.to_nat (o - 1 - z))) as [_ E1].
          replace (o - 1 - Z.of_nat (Z.to_nat (o - 1 - z))) with z in E1 by lia.
          rewrite E1. apply Esm.
        - destruct (Er (Z.to_nat (z - o))) as [E1 _].
          replace (o + Z.of_nat (Z.to_nat (z - o))) with z in E1 by lia.
          rewrite E1. apply Esm. }
      split.
      + intros i. destruct (Hcells i) as [A B]. rewrite <- A, <- B. split; apply Hall.
      + exists b. split; [|exact Hcells].
        rewrite Hhd. unfold b, x, winpos. simpl. destruct (d_dir C); lia.
  Qed.
End BlockSpec.

(** ** Backsymbol machine over a simple machine *)

(** remembered symbol behind the head *)
Definition back_denotes (n m : nat) (C : dcfg nat (backstate nat sstate)) (c : config) : Prop :=
  b_state (d_st C) = SRun (st c) /\ (st c < n)%nat /\ (b_sym (d_st C) < m)%nat /\
  (forall i, (d_l C i < m)%nat /\ (d_r C i < m)%nat) /\
  tp c (hd c - dz (d_dir C)) = b_sym (d_st C) /\
  forall i, match d_dir C with
            | R => tp c (hd c + Z.of_nat i) = d_r C i /\ tp c (hd c - 2 - Z.of_nat i) = d_l C i
            | L => tp c (hd c - Z.of_nat i) = d_l C i /\ tp c (hd c + 2 + Z.of_nat i) = d_r C i
            end.

Section BackSpec.
  Context (n m : nat) (tab : ttable) (W : wf_ttable n m tab).
  Let T := table_of tab.

  (** left end of the two-cell window *)
  Definition back_start (d : dir) (c : config) : Z := match d with R => hd c - 1 | L => hd c end.

  (** the tape shown by [C]: remembered symbol included *)
  Definition back_shows (C : dcfg nat (backstate nat sstate)) (o : Z) (t : Z -> nat) : Prop :=
    forall i, match d_dir C with
    | R => t (o - 1) = b_sym (d_st C) /\
           t (o + Z.of_nat i) = d_r C i /\ t (o - 2 - Z.of_nat i) = d_l C i
    | L => t (o + 1) = b_sym (d_st C) /\
           t (o - Z.of_nat i) = d_l C i /\ t (o + 2 + Z.of_nat i) = d_r C i
    end.

  Definition back_answer (C : dcfg nat (backstate nat sstate)) (c : config) (max : nat)
             (t : transition nat (backstate nat sstate)) : Prop :=
    let w := back_start (d_dir C) c in
    let C' := apply_t C (t_sym t) (t_state t) (t_dir t) in
    match t_cond t with
    | RUNNING => exists c', steps T (t_steps t) c = Some c' /\ (0 < t_steps t)%nat /\
        stays T c w 2 (t_steps t) /\ ~ in_window w 2 c' /\ back_denotes n m C' c'
    | HALT => exists q s tape o, halts_at T c (t_steps t) q s true tape /\
        (exists rest, t_details t = DCell s q :: rest) /\
        stays T c w 2 (t_steps t) /\ back_shows C' o tape
    | UNDEFINED => exists q s tape o, halts_at T c (t_steps t) q s false tape /\
        (exists rest, t_details t = DCell s q :: rest) /\
        stays T c w 2 (t_steps t) /\ back_shows C' o tape
    | INF_REPEAT => forall i, exists ci, steps T i c = Some ci /\ in_window w 2 ci
    | GAVE_UP => exists c', steps T max c = Some c' /\ stays T c w 2 (S max)
    end.

  Lemma back_apply (C : dcfg nat (backstate nat sstate)) c t' x y s d :
    back_denotes n m C c ->
    shows (back_start (d_dir C) c) [x; y] t' ->
    same_outside (back_start (d_dir C) c) 2 (tp c) t' ->
    back_shows (apply_t C (match d with R => x | L => y end)
                        (Back s (match d with R => y | L => x end)) d)
      (match d with R => back_start (d_dir C) c + 2 | L => back_start (d_dir C) c - 1 end) t'.
  Proof.
    intros (H1 & H2 & H3 & H4 & H5 & H6) Hs Ho i.
    pose proof (Hs 0%nat x eq_refl) as X. pose proof (Hs 1%nat y eq_refl) as Y.
    assert (H6i := H6 i). assert (H6S := H6 (S i)).
    assert (HP : match i with O => True | S j => match d_dir C with
            | R => tp c (hd c + Z.of_nat j) = d_r C j /\ tp c (hd c - 2 - Z.of_nat j) = d_l C j
            | L => tp c (hd c - Z.of_nat j) = d_l C j /\ tp c (hd c + 2 + Z.of_nat j) = d_r C j
            end end) by (destruct i; auto; apply H6).
    unfold apply_t, back_start in *.
    destruct d, (d_dir C); simpl d_dir; simpl d_l; simpl d_r; simpl d_st; cbn [b_sym] ; unfold scons, stl.
    - split; [rewrite <- X; f_equal; lia|]. split.
      + rewrite <- (proj1 H6S). rewrite Ho by lia. f_equal; lia.
      + destruct i as [|i]; [rewrite <- Y; f_equal; lia|].
        rewrite <- (proj2 HP). rewrite Ho by lia. f_equal; lia.
    - split; [rewrite <- X; f_equal; lia|]. split.
      + rewrite <- (proj2 H6i). rewrite Ho by lia. f_equal; lia.
      + destruct i as [|i]; [rewrite <- Y; f_equal; lia|].
        rewrite <- (proj1 H6i). rewrite Ho by lia. f_equal; lia.
    - split; [rewrite <- Y; f_equal; lia|]. split.
      + rewrite <- (proj2 H6i). rewrite Ho by lia. f_equal; lia.
      + destruct i as [|i]; [rewrite <- X; f_equal; lia|].
        rewrite <- (proj1 H6i). rewrite Ho by lia. f_equal; lia.
    - split; [rewrite <- Y; f_equal; lia|]. split.
      + rewrite <- (proj1 H6S). rewrite Ho by lia. f_equal; lia.
      + destruct i as [|i]; [rewrite <- X; f_equal; lia|].
        rewrite <- (proj2 HP). rewrite Ho by lia. f_equal; lia.
  Qed.

  Theorem back_exact max C c : back_denotes n m C c ->
    exists t, back_trans (simple_machine tab) max (facing C) (d_st C) (d_dir C) = Some t /\
              back_answer C c max t.
  Proof.
    intros HD. pose proof HD as (Hs & Hn & Hbm & Hm & Hb & Hi).
    set (w := back_start (d_dir C) c).
    set (tape := back_tape C). set (pos := back_pos (d_dir C)).
    assert (Hhd : hd c = w + pos) by (unfold w, pos, back_start, back_pos; destruct (d_dir C); lia).
    assert (Hpos : 0 <= pos < Z.of_nat 2) by (unfold pos, back_pos; destruct (d_dir C); lia).
    assert (Hlen : length tape = 2%nat) by (unfold tape, back_tape; destruct (d_dir C); reflexivity).
    assert (Hsh : shows w tape (tp c)).
    { unfold tape, w, back_start, back_tape, facing. specialize (Hi O).
      destruct (d_dir C); simpl in Hb; intros [|[|j]] a; simpl; try discriminate;
        try (destruct j; discriminate); intros [= <-].
      - rewrite <- (proj1 Hi). f_equal; lia.
      - rewrite <- Hb. f_equal; lia.
      - rewrite <- Hb. f_equal; lia.
      - rewrite <- (proj1 Hi). f_equal; lia. }
    assert (Hsm : forall a, In a tape -> (a < m)%nat).
    { unfold tape, back_tape, facing. intros a. destruct (d_dir C); simpl;
        intros [<-|[<-|[]]]; auto; apply Hm. }
    destruct (window_exact n m tab W w 2 c max (st c) tape pos (d_dir C))
      as (t & Et & Hl & Ha); auto.
    assert (H0 : wrel n m w 2 c (WCfg (SRun (st c)) (d_dir C) pos tape) c).
    { repeat split; simpl; auto; try lia. }
    assert (Hout : t_cond t = RUNNING -> (forall x, In x (t_sym t) -> (x < m)%nat) /\
                   forall q, t_state t = SRun q -> (q < n)%nat).
    { intros Hc.
      destruct (sim_loop_end (simple_machine tab) (M_sym_eq n m tab W) (M_st_eq n m tab W)
                  (simple_one n m tab W) max (S max) (WCfg (SRun (st c)) (d_dir C) pos tape)
                  0 0 [] None 128 t ltac:(lia) Et)
        as (i & w' & sym & tr & A1 & A2 & A3 & A4 & A5 & A6 & A7 & A8).
      destruct (wrel_run n m tab W w 2 c i _ _ _ H0 A1) as (c1 & _ & Hr).
      destruct (wrel_trans n m tab W w 2 c _ _ Hr) as (tr' & Eg & Et' & Hok & _).
      rewrite A2 in Eg. injection Eg as ->. rewrite A3 in Et'. injection Et' as ->.
      simpl in A8. destruct A8 as [(B1 & _)|[(B1 & _)|[(B1 & B2 & _)|(B1 & B2 & _)]]]; try congruence.
      destruct Hok as (_ & _ & Hcc). rewrite B2 in Hcc.
      destruct Hcc as (_ & Hsy & q & Hq & Hqn). split.
      - intros x Hx. rewrite A4 in Hx. apply In_lset' in Hx.
        destruct Hr as (_ & _ & _ & _ & _ & R6 & _). destruct Hx as [->|Hx]; auto.
      - intros q' Hq'. rewrite A5, Hq in Hq'. injection Hq' as <-. exact Hqn. }
    destruct (t_sym t) as [|x [|y [|? ?]]] eqn:Exy; simpl in Hl; try lia.
    exists (Trans (t_cond t) (t_details t) (match t_dir t with R => x | L => y end)
              (Back (t_state t) (match t_dir t with R => y | L => x end))
              (t_dir t) (t_steps t) (t_seen t)).
    split.
    { unfold back_trans, tape, pos, back_tape, back_pos in *.
      destruct (d_dir C); rewrite Hs, Et, Exy; destruct (t_dir t); reflexivity. }
    unfold back_answer, window_answer in *. fold w.
    cbn [t_cond t_steps t_sym t_state t_dir t_details]. fold T in Ha.
    destruct (t_cond t).
    - destruct Ha as (c' & A1 & A2 & A3 & A4 & A5 & A6). exists c'.
      destruct (Hout eq_refl) as (Hx & Hq). rewrite Exy in A5.
      split; [exact A1|]. split.
      { destruct (t_steps t); [|lia]. simpl in A1. injection A1 as <-.
        rewrite Hhd in A4. destruct (t_dir t); lia. }
      split; [exact A2|]. split.
      { unfold in_window. rewrite A4. destruct (t_dir t); lia. }
      pose proof (back_apply C c (tp c') x y (t_state t) (t_dir t) HD A5 A6) as BA.
      split; [unfold apply_t; destruct (t_dir t); simpl; exact A3|].
      split; [apply Hq; exact A3|].
      split; [unfold apply_t; destruct (t_dir t); simpl; apply Hx; simpl; auto|].
      split.
      { intros i. unfold apply_t, scons, stl.
        destruct (t_dir t), (d_dir C); simpl; split; destruct i; try apply Hm; apply Hx; simpl; auto. }
      unfold back_shows in BA.
      assert (Hd : d_dir (apply_t C (match t_dir t with R => x | L => y end)
        (Back (t_state t) (match t_dir t with R => y | L => x end)) (t_dir t)) = t_dir t)
        by (unfold apply_t; destruct (t_dir t); reflexivity).
      rewrite Hd in *. fold w in BA.
      assert (Hhd' : hd c' = match t_dir t with R => w + 2 | L => w - 1 end).
      { rewrite A4. destruct (t_dir t); lia. }
      rewrite Hhd'. split.
      + specialize (BA O). destruct (t_dir t); simpl dz; rewrite <- (proj1 BA); f_equal; lia.
      + intros i. specialize (BA i). destruct (t_dir t); apply BA.
    - destruct Ha as (q & s & tp' & rest & A1 & A2 & A3 & A4 & A5).
      exists q, s, tp'. eexists. split; [exact A1|]. split; [eauto|]. split; [exact A2|].
      rewrite Exy in A4. apply (back_apply C c tp' x y); auto.
    - exact Ha.
    - destruct Ha as (q & s & tp' & rest & A1 & A2 & A3 & A4 & A5).
      exists q, s, tp'. eexists. split; [exact A1|]. split; [eauto|]. split; [exact A2|].
      rewrite Exy in A4. apply (back_apply C c tp' x y); auto.
    - exact Ha.
  Qed.
End BackSpec.
