(** * Simple, block and backsymbol machines simulate the base machine *)
Require Import ZArith List Lia Bool Arith FinFun.
From Verif Require Import Spec_TM M_Turing_Machine P_Stream P_SimLimited.
Import ListNotations.
Open Scope Z_scope.

Lemma In_firstn {A} (x : A) n l : In x (firstn n l) -> In x l.
Proof. intros H. rewrite <- (firstn_skipn n l). apply in_or_app. now left. Qed.
Lemma In_skipn {A} (x : A) n l : In x (skipn n l) -> In x l.
Proof. intros H. rewrite <- (firstn_skipn n l). apply in_or_app. now right. Qed.

(** ** Tables *)

(** The transition function a table stands for. *)
Definition table_of (tab : ttable) : table := fun q s =>
  match nth_error tab q with
  | Some row => match nth_error row s with
                | Some t => match t_cond t, t_state t with
                            | RUNNING, SRun q' => Go (t_sym t) (t_dir t) q'
                            | HALT, _ => Stop (t_sym t) (t_dir t) true
                            | _, _ => Stop (t_sym t) (t_dir t) false
                            end
                | None => Stop 1 R false
                end
  | None => Stop 1 R false
  end.

Definition cell_ok (n m i j : nat) (t : transition nat sstate) : Prop :=
  t_steps t = 1%nat /\ t_seen t = [(i, 0%nat)] /\
  match t_cond t with
  | RUNNING => t_details t = [] /\ (t_sym t < m)%nat /\
               exists q, t_state t = SRun q /\ (q < n)%nat
  | HALT | UNDEFINED => t_details t = [DCell j i] /\ t_state t = SHalt
  | _ => False
  end.

Definition wf_ttable (n m : nat) (tab : ttable) : Prop :=
  (0 < n)%nat /\ (0 < m)%nat /\ length tab = n /\
  (forall row, In row tab -> length row = m) /\
  forall i j row t, nth_error tab i = Some row -> nth_error row j = Some t -> cell_ok n m i j t.

Lemma wf_lookup n m tab i j :
  wf_ttable n m tab -> (i < n)%nat -> (j < m)%nat ->
  exists row t, nth_error tab i = Some row /\ nth_error row j = Some t /\ cell_ok n m i j t.
Proof.
  intros (H0 & H1 & Hl & Hr & Hc) Hi Hj.
  destruct (nth_error tab i) as [row|] eqn:E.
  2:{ apply nth_error_None in E. lia. }
  destruct (nth_error row j) as [t|] eqn:E'.
  2:{ apply nth_error_None in E'. rewrite (Hr row) in E'; [lia|]. eapply nth_error_In; eauto. }
  exists row, t. repeat split; auto. eapply Hc; eauto. eapply Hc; eauto. eapply Hc; eauto.
Qed.

(** ** Simple machine *)

Definition Rsimple (n m : nat) (C : dcfg nat sstate) (c : config) : Prop :=
  d_st C = SRun (st c) /\ (st c < n)%nat /\
  (forall i, (d_l C i < m)%nat /\ (d_r C i < m)%nat) /\
  exists o, hd c = match d_dir C with R => o | L => o - 1 end /\
            forall i, tp c (o + Z.of_nat i) = d_r C i /\ tp c (o - 1 - Z.of_nat i) = d_l C i.

Definition shalted (s : sstate) : Prop := s = SHalt.

Lemma sum01 (f : nat -> bool) l :
  list_sum (map (fun i => if f i then 0%nat else 1%nat) l) =
  length (filter (fun i => negb (f i)) l).
Proof. induction l as [|a l IH]; simpl; auto. destruct (f a); simpl; lia. Qed.

(** streams with [a] and [b] nonzero entries make a tape of score [a + b] *)
Lemma score_of_streams (l r : nat -> nat) (t : Z -> nat) o a b :
  (forall i, t (o + Z.of_nat i) = r i /\ t (o - 1 - Z.of_nat i) = l i) ->
  ssum (fun s => if Nat.eqb s 0 then 0%nat else 1%nat) l a ->
  ssum (fun s => if Nat.eqb s 0 then 0%nat else 1%nat) r b ->
  score t (a + b).
Proof.
  intros Ht (N & HN & <-) (K & HK & <-).
  rewrite (sum01 (fun i => Nat.eqb (l i) 0)), (sum01 (fun i => Nat.eqb (r i) 0)).
  exists (map (fun i => o - 1 - Z.of_nat i) (filter (fun i => negb (Nat.eqb (l i) 0)) (seq 0 N)) ++
          map (fun i => o + Z.of_nat i) (filter (fun i => negb (Nat.eqb (r i) 0)) (seq 0 K))).
  split; [|split].
  - assert (ND : forall (g : nat -> Z) p K, (forall x y, g x = g y -> x = y) ->
                NoDup (map g (filter p (seq 0 K)))).
    { intros g p K0 Hg. apply Injective_map_NoDup; [exact Hg|].
      apply NoDup_filter, seq_NoDup. }

    assert (G : forall (x y : list Z), NoDup x -> NoDup y -> (forall z, In z x -> In z y -> False) ->
                NoDup (x ++ y)).
    { induction x as [|z x IH]; simpl; intros y Hx Hy Hd; auto.
      inversion Hx; subst. constructor.
      - intros Hin. apply in_app_or in Hin. destruct Hin; auto. apply (Hd z); [now left|assumption].
      - apply IH; auto. intros w H3 H4. apply (Hd w); [now right|assumption]. }
    apply G.
    + apply ND. intros; lia.
    + apply ND. intros; lia.
    + intros z Hz Hz'. apply in_map_iff in Hz. destruct Hz as (i & <- & _).
      apply in_map_iff in Hz'. destruct Hz' as (j & Hj & _). lia.
  - intros z. rewrite in_app_iff, !in_map_iff.
    split.
    + intros [(i & <- & Hi)|(i & <- & Hi)]; apply filter_In in Hi; destruct Hi as [_ Hi];
        apply negb_true_iff, Nat.eqb_neq in Hi; destruct (Ht i) as [H1 H2]; congruence.
    + intros Hz. destruct (Z_lt_le_dec z o) as [Hlt|Hge].
      * left. set (i := Z.to_nat (o - 1 - z)). exists i.
        assert (Hi : o - 1 - Z.of_nat i = z) by (unfold i; lia).
        split; [exact Hi|]. destruct (Ht i) as [_ H2]. rewrite Hi in H2.
        apply filter_In. split.
        -- apply in_seq. destruct (le_lt_dec N i) as [Hle|]; [|lia].
           apply HN in Hle. destruct (Nat.eqb (l i) 0) eqn:E; [|discriminate].
           apply Nat.eqb_eq in E. congruence.
        -- apply negb_true_iff, Nat.eqb_neq. congruence.
      * right. set (i := Z.to_nat (z - o)). exists i.
        assert (Hi : o + Z.of_nat i = z) by (unfold i; lia).
        split; [exact Hi|]. destruct (Ht i) as [H1 _]. rewrite Hi in H1.
        apply filter_In. split.
        -- apply in_seq. destruct (le_lt_dec K i) as [Hle|]; [|lia].
           apply HK in Hle. destruct (Nat.eqb (r i) 0) eqn:E; [|discriminate].
           apply Nat.eqb_eq in E. congruence.
        -- apply negb_true_iff, Nat.eqb_neq. congruence.
  - rewrite app_length, !map_length. reflexivity.
Qed.

(** the tape relation, for a possibly halted configuration *)
Definition tape_rel (C : dcfg nat sstate) (o : Z) (t : Z -> nat) : Prop :=
  forall i, t (o + Z.of_nat i) = d_r C i /\ t (o - 1 - Z.of_nat i) = d_l C i.

Lemma tape_rel_apply C o t h a s d :
  tape_rel C o t -> h = match d_dir C with R => o | L => o - 1 end ->
  tape_rel (apply_t C a s d)
           (match d_dir C, d with R, R => o + 1 | R, L => o | L, R => o | L, L => o - 1 end)
           (put t h a).
Proof.
  intros H Hh i. unfold apply_t.
  assert (H0 := H O). assert (Hi := H i). assert (HSi := H (S i)).
  destruct (d_dir C) eqn:Ed, d; simpl; unfold stl, scons; subst h.
  - split.
    + destruct i as [|i].
      * replace (o - 1 + Z.of_nat 0) with (o - 1) by lia. now rewrite put_same.
      * rewrite put_other by lia. destruct (H i) as [H1 _]. rewrite <- H1. f_equal. lia.
    + rewrite put_other by lia. destruct HSi as [_ H2]. rewrite <- H2. f_equal. lia.
  - split.
    + rewrite put_other by lia. tauto.
    + destruct i as [|i].
      * replace (o - 1 - Z.of_nat 0) with (o - 1) by lia. now rewrite put_same.
      * rewrite put_other by lia. destruct (H (S i)) as [_ H2]. now rewrite <- H2.
  - split.
    + destruct i as [|i].
      * replace (o + Z.of_nat 0) with o by lia. now rewrite put_same.
      * rewrite put_other by lia. destruct (H (S i)) as [H1 _]. now rewrite <- H1.
    + rewrite put_other by lia. tauto.
  - split.
    + rewrite put_other by lia. destruct HSi as [H1 _]. rewrite <- H1. f_equal. lia.
    + destruct i as [|i].
      * replace (o + 1 - 1 - Z.of_nat 0) with o by lia. now rewrite put_same.
      * rewrite put_other by lia. destruct (H i) as [_ H2]. rewrite <- H2. f_equal. lia.
Qed.

Lemma seen_ok_one T c : seen_ok T c 1 [(st c, 0%nat)].
Proof.
  intros q. simpl. destruct (Nat.eqb q (st c)) eqn:E.
  - apply Nat.eqb_eq in E. subst. split; [lia|]. split; [exists c; auto|]. intros; lia.
  - apply Nat.eqb_neq in E. intros i c' Hi. assert (i = O) by lia. subst. simpl.
    intros [= <-]. auto.
Qed.

Lemma simple_msound Gd n m tab :
  wf_ttable n m tab ->
  msound Gd (table_of tab) (simple_machine tab) (Rsimple n m) shalted.
Proof.
  intros W.
  assert (Hface : forall C c, Rsimple n m C c ->
     facing C = tp c (hd c) /\ (facing C < m)%nat).
  { intros C c (H1 & H2 & H3 & o & H4 & H5). unfold facing. rewrite H4.
    destruct (d_dir C); split; try apply H3.
    - destruct (H5 O) as [_ H6]. rewrite <- H6. f_equal. lia.
    - destruct (H5 O) as [H6 _]. rewrite <- H6. f_equal. lia. }
  constructor.
  - intros a b. simpl. apply Nat.eqb_eq.
  - intros a b. simpl. destruct a, b; simpl; try (split; congruence).
    rewrite Nat.eqb_eq. split; congruence.
  - intros C C' c (E1 & E2 & E3 & E4) (H1 & H2 & H3 & o & H4 & H5).
    split; [congruence|]. split; [exact H2|]. split.
    + intros i. rewrite <- E1, <- E2. apply H3.
    + exists o. rewrite <- E4. split; [exact H4|]. intros i. rewrite <- E1, <- E2. apply H5.
  - intros C c HR. destruct (Hface C c HR) as [Hf Hm].
    destruct HR as (H1 & H2 & _). simpl. unfold simple_trans. rewrite H1.
    destruct (wf_lookup n m tab (st c) (facing C) W H2 Hm) as (row & t & -> & -> & _).
    discriminate.
  - intros C c t HR Ht. destruct (Hface C c HR) as [Hf Hm].
    destruct HR as (H1 & H2 & H3 & o & H4 & H5).
    simpl in Ht. unfold simple_trans in Ht. rewrite H1 in Ht.
    destruct (wf_lookup n m tab (st c) (facing C) W H2 Hm) as (row & t' & Er & Et & Hok).
    rewrite Er, Et in Ht. injection Ht as ->.
    destruct Hok as (Hs & Hseen & Hc).
    assert (Ttab : table_of tab (st c) (tp c (hd c)) =
       match t_cond t, t_state t with
       | RUNNING, SRun q' => Go (t_sym t) (t_dir t) q'
       | HALT, _ => Stop (t_sym t) (t_dir t) true
       | _, _ => Stop (t_sym t) (t_dir t) false
       end).
    { unfold table_of. rewrite <- Hf, Er, Et. reflexivity. }
    assert (Hscore : forall k, sc (simple_machine tab)
        (apply_t C (t_sym t) (t_state t) (t_dir t)) k ->
        score (put (tp c) (hd c) (t_sym t)) k).
    { intros k (a & b & Ha & Hb & ->). simpl. rewrite Nat.add_0_r.
      eapply score_of_streams; [|exact Ha|exact Hb].
      apply tape_rel_apply with (s := t_state t); [exact H5|exact H4]. }
    unfold outcome. rewrite Hs, Hseen.
    destruct (t_cond t) eqn:Ec; try contradiction.
    + destruct Hc as (Hd & Hsy & q & Hq & Hqn).
      split; [unfold shalted; rewrite Hq; discriminate|]. split; [lia|].
      split; [apply seen_ok_one|].
      exists (Cfg q (hd c + dz (t_dir t)) (put (tp c) (hd c) (t_sym t))).
      split.
      * simpl. unfold step. rewrite Ttab, Hq. reflexivity.
      * unfold Rsimple. simpl st. simpl hd. simpl tp.
        split; [|split; [exact Hqn|split]].
        -- rewrite Hq. unfold apply_t. destruct (t_dir t); reflexivity.
        -- intros i. unfold apply_t, scons, stl.
           destruct (t_dir t), (d_dir C); simpl; split; destruct i; auto; apply H3.
        -- exists (match d_dir C, t_dir t with
                   | R, R => o + 1 | R, L => o | L, R => o | L, L => o - 1 end).
           split.
           ++ unfold apply_t. rewrite H4. destruct (d_dir C), (t_dir t); simpl; lia.
           ++ apply tape_rel_apply; auto.
    + destruct Hc as (Hd & Hst). split; [exact Hst|].
      exists (st c), (tp c (hd c)), (put (tp c) (hd c) (t_sym t)), [].
      rewrite Hd, Hf. repeat split; auto.
      * exists 0%nat, c, (t_sym t), (t_dir t). repeat split; auto.
      * apply seen_ok_one.
    + destruct Hc as (Hd & Hst). split; [exact Hst|].
      exists (st c), (tp c (hd c)), (put (tp c) (hd c) (t_sym t)), [].
      rewrite Hd, Hf. repeat split; auto.
      * exists 0%nat, c, (t_sym t), (t_dir t). repeat split; auto.
      * apply seen_ok_one.
  - intros C c k (H1 & H2 & H3 & o & H4 & H5) (a & b & Ha & Hb & ->).
    simpl. rewrite Nat.add_0_r. eapply score_of_streams; eauto.
  - destruct W as (H0 & H1 & _).
    split; [reflexivity|]. split; [exact H0|]. split; [intros; simpl; lia|].
    exists 0. split; [reflexivity|]. intros i; split; reflexivity.
  - reflexivity.
Qed.

Lemma simple_no_give_up n m tab :
  wf_ttable n m tab -> no_give_up (simple_machine tab) (Rsimple n m).
Proof.
  intros W C c t (H1 & H2 & H3 & o & H4 & H5) Ht.
  simpl in Ht. unfold simple_trans in Ht. rewrite H1 in Ht.
  destruct (nth_error tab (st c)) as [row|] eqn:Er; [|discriminate].
  destruct W as (_ & _ & _ & _ & Hc). specialize (Hc _ _ _ _ Er Ht).
  destruct Hc as (_ & _ & Hc). intros E. rewrite E in Hc. exact Hc.
Qed.

Definition seen_wf {Sym St} (M : machine Sym St) (Rp : dcfg Sym St -> config -> Prop) : Prop :=
  forall C c t, Rp C c -> m_trans M (facing C) (d_st C) (d_dir C) = Some t -> dict_wf (t_seen t).

Lemma simple_seen_wf n m tab :
  wf_ttable n m tab -> seen_wf (simple_machine tab) (Rsimple n m).
Proof.
  intros W C c t (H1 & H2 & H3 & o & H4 & H5) Ht.
  simpl in Ht. unfold simple_trans in Ht. rewrite H1 in Ht.
  destruct (nth_error tab (st c)) as [row|] eqn:Er; [|discriminate].
  destruct W as (_ & _ & _ & _ & Hc). specialize (Hc _ _ _ _ Er Ht).
  destruct Hc as (_ & Hs & _). rewrite Hs. repeat constructor. simpl. tauto.
Qed.

(** ** Block machine *)

Section Block.
  Context {Sym St : Type} (Gd : Prop) (T : table) (M : machine Sym St)
          (Rp : dcfg Sym St -> config -> Prop) (halted : St -> Prop).
  Context (k : nat) (Hk : (0 < k)%nat) (offset : nat) (Hoff : (offset < k)%nat) (max_sim : nat).

  (** right and left half tapes of blocks, expanded to base symbols *)
  Definition expr (r : nat -> list Sym) : nat -> Sym :=
    fun i => nth (i mod k) (r (i / k)%nat) (m_init_sym M).
  Definition expl (l : nat -> list Sym) : nat -> Sym :=
    fun i => nth (i mod k) (rev (l (i / k)%nat)) (m_init_sym M).

  Lemma expand_app (f : nat -> list Sym) :
    (forall i, length (f i) = k) ->
    seqv (fun i => nth (i mod k) (f (i / k)%nat) (m_init_sym M))
         (sapp (f O) (fun i => nth (i mod k) (f (S (i / k))) (m_init_sym M))).
  Proof.
    intros H i. unfold sapp.
    destruct (lt_dec i k) as [Hlt|Hge].
    - rewrite Nat.mod_small, Nat.div_small by assumption.
      destruct (nth_error (f O) i) eqn:E.
      + now apply nth_error_nth.
      + apply nth_error_None in E. rewrite H in E. lia.
    - rewrite (proj2 (nth_error_None (f O) i)) by (rewrite H; lia). rewrite H.
      assert (E : (i = 1 * k + (i - k))%nat) by lia.
      rewrite E at 1 2.
      rewrite Nat.div_add_l by lia. rewrite Nat.add_comm, Nat.mod_add by lia.
      reflexivity.
  Qed.

  Lemma expr_app r : (forall i, length (r i) = k) -> seqv (expr r) (sapp (r O) (expr (stl r))).
  Proof. intros H. apply (expand_app r H). Qed.

  Lemma expl_app l : (forall i, length (l i) = k) -> seqv (expl l) (sapp (rev (l O)) (expl (stl l))).
  Proof.
    intros H. apply (expand_app (fun i => rev (l i))).
    intros i. now rewrite rev_length.
  Qed.

  Lemma expr_scons a r : length a = k -> (forall i, length (r i) = k) ->
    seqv (expr (scons a r)) (sapp a (expr r)).
  Proof.
    intros Ha H. eapply seqv_trans; [apply expr_app|].
    - intros [|i]; simpl; auto.
    - apply seqv_refl.
  Qed.

  Lemma expl_scons a l : length a = k -> (forall i, length (l i) = k) ->
    seqv (expl (scons a l)) (sapp (rev a) (expl l)).
  Proof.
    intros Ha H. eapply seqv_trans; [apply expl_app|].
    - intros [|i]; simpl; auto.
    - apply seqv_refl.
  Qed.

  Lemma expr_ext r r' : seqv r r' -> seqv (expr r) (expr r').
  Proof. intros H i. unfold expr. now rewrite H. Qed.
  Lemma expl_ext r r' : seqv r r' -> seqv (expl r) (expl r').
  Proof. intros H i. unfold expl. now rewrite H. Qed.

  Definition block_pos (s : bstate St) (d : dir) : Z :=
    match s with
    | OffsetStart _ off => Z.of_nat off
    | Plain _ => match d with R => 0 | L => Z.of_nat k - 1 end
    end.
  Definition block_base (s : bstate St) : St :=
    match s with OffsetStart s _ => s | Plain s => s end.
  Definition block_lo (C : dcfg (list Sym) (bstate St)) : nat -> Sym :=
    match d_dir C with R => expl (d_l C) | L => expl (stl (d_l C)) end.
  Definition block_ro (C : dcfg (list Sym) (bstate St)) : nat -> Sym :=
    match d_dir C with R => expr (stl (d_r C)) | L => expr (d_r C) end.

  Definition flatten (C : dcfg (list Sym) (bstate St)) : dcfg Sym St :=
    win (block_lo C) (facing C) (block_pos (d_st C) (d_dir C)) (d_dir C)
        (block_base (d_st C)) (block_ro C).

  Definition Rblock (C : dcfg (list Sym) (bstate St)) (c : config) : Prop :=
    (forall i, length (d_l C i) = k /\ length (d_r C i) = k) /\
    (match d_st C with OffsetStart _ off => (off < k)%nat | Plain _ => True end) /\
    Rp (flatten C) c.

  Definition bhalted (s : bstate St) : Prop :=
    match s with Plain s => halted s | OffsetStart _ _ => False end.

  (** at a block boundary the flattened tape is the concatenation *)
  Lemma flatten_plain C s :
    (forall i, length (d_l C i) = k /\ length (d_r C i) = k) -> d_st C = Plain s ->
    deq (flatten C) (DCfg (expl (d_l C)) (expr (d_r C)) s (d_dir C)).
  Proof.
    intros Hl Hs. unfold flatten, block_pos, block_base, block_lo, block_ro, facing, win.
    rewrite Hs. destruct (d_dir C); repeat split; simpl.
    - replace (winpos L (Z.of_nat k - 1)) with k by (unfold winpos; lia).
      rewrite firstn_all2 by (destruct (Hl O); lia).
      apply seqv_sym, expl_app. apply Hl.
    - replace (winpos L (Z.of_nat k - 1)) with k by (unfold winpos; lia).
      rewrite skipn_all2 by (destruct (Hl O); lia). apply sapp_nil.
    - apply sapp_nil.
    - apply seqv_sym, expr_app. apply Hl.
  Qed.

  Lemma facing_len C : (forall i, length (d_l C i) = k /\ length (d_r C i) = k) ->
    @length Sym (@facing _ (bstate St) C) = k.
  Proof. intros H. unfold facing. destruct (d_dir C); apply H. Qed.

  Lemma apply_len (C : dcfg (list Sym) (bstate St)) a s d :
    (forall i, length (d_l C i) = k /\ length (d_r C i) = k) -> length a = k ->
    forall i, length (d_l (apply_t C a s d) i) = k /\ length (d_r (apply_t C a s d) i) = k.
  Proof.
    intros H Ha i. unfold apply_t, scons, stl.
    destruct d, (d_dir C); simpl; split; destruct i; auto; apply H.
  Qed.

  (** leaving the block = the macro configuration after the macro transition *)
  Lemma flatten_exit C a s d :
    (forall i, length (d_l C i) = k /\ length (d_r C i) = k) -> length a = k ->
    deq (win (block_lo C) a (match d with R => Z.of_nat (length a) | L => -1 end) d s (block_ro C))
        (flatten (apply_t C a (Plain s) d)).
  Proof.
    intros Hl Ha.
    eapply deq_trans; [|apply deq_sym, flatten_plain with (s := s)].
    2:{ apply apply_len; auto. }
    2:{ unfold apply_t; destruct d; reflexivity. }
    unfold win, apply_t, block_lo, block_ro.
    assert (HL : forall i, length (d_l C i) = k) by apply Hl.
    assert (HR : forall i, length (d_r C i) = k) by apply Hl.
    assert (HL' : forall i, length (stl (d_l C) i) = k) by (intros; apply Hl).
    assert (HR' : forall i, length (stl (d_r C) i) = k) by (intros; apply Hl).
    destruct d; simpl d_l; simpl d_r; simpl d_st; simpl d_dir.
    - replace (winpos L (-1)) with O by reflexivity. simpl.
      destruct (d_dir C); repeat split; simpl; try apply sapp_nil;
        apply seqv_sym, expr_scons; auto.
    - replace (winpos R (Z.of_nat (length a))) with (length a) by (unfold winpos; lia).
      rewrite firstn_all, skipn_all.
      destruct (d_dir C); repeat split; simpl; try apply sapp_nil;
        apply seqv_sym, expl_scons; auto.
  Qed.

  Definition beval := (fun s : list Sym => list_sum (map (m_eval_sym M) s)).

  Lemma ssum_expand (f : nat -> list Sym) a :
    m_eval_sym M (m_init_sym M) = 0%nat ->
    (forall i, length (f i) = k) ->
    ssum beval f a ->
    ssum (m_eval_sym M) (fun i => nth (i mod k) (f (i / k)%nat) (m_init_sym M)) a.
  Proof.
    intros He Hl (N & HN & Hsum). revert f a Hl HN Hsum.
    assert (Z0 : forall l : list Sym, list_sum (map (m_eval_sym M) l) = 0%nat ->
                 forall j, m_eval_sym M (nth j l (m_init_sym M)) = 0%nat).
    { induction l as [|x l IH]; simpl; intros H j; destruct j; auto; try lia.
      apply IH. lia. }
    induction N as [|N IH]; intros f a Hl HN Hsum.
    - exists O. simpl in *. split; auto. intros i _. apply Z0. apply HN. lia.
    - simpl in Hsum. rewrite map_seq_S in Hsum.
      eapply ssum_ext; [apply seqv_sym, (expand_app f Hl)|].
      apply ssum_sapp.
      exists (list_sum (map (fun i => beval (f (S i))) (seq 0 N))). split.
      + apply (IH (fun i => f (S i))); auto. intros i Hi. apply HN. lia.
      + now rewrite <- Hsum.
  Qed.

  Lemma ssum_expr r a : m_eval_sym M (m_init_sym M) = 0%nat ->
    (forall i, length (r i) = k) -> ssum beval r a -> ssum (m_eval_sym M) (expr r) a.
  Proof. intros. now apply ssum_expand. Qed.

  Lemma list_sum_rev x : list_sum (rev x) = list_sum x.
  Proof. induction x; simpl; auto. rewrite list_sum_app. simpl. lia. Qed.

  Lemma ssum_expl l a : m_eval_sym M (m_init_sym M) = 0%nat ->
    (forall i, length (l i) = k) -> ssum beval l a -> ssum (m_eval_sym M) (expl l) a.
  Proof.
    intros He Hl (N & HN & <-). apply (ssum_expand (fun i => rev (l i))); auto.
    - intros. now rewrite rev_length.
    - exists N. split.
      + intros i Hi. unfold beval. rewrite map_rev, list_sum_rev. now apply HN.
      + apply sum_seq_ext. intros. unfold beval. now rewrite map_rev, list_sum_rev.
  Qed.

  Hypothesis MS : msound Gd T M Rp halted.
  Hypothesis NG : Gd -> no_give_up M Rp.
  Hypothesis SW : seen_wf M Rp.
  Let B := block_machine M k offset max_sim.

  Lemma block_sc_out C a s d n :
    (forall i, length (d_l C i) = k /\ length (d_r C i) = k) ->
    sc B (apply_t C a (Plain s) d) n ->
    win_sc M (block_lo C) (block_ro C) a s n.
  Proof.
    intros Hl (x & y & Hx & Hy & ->). unfold win_sc, block_lo, block_ro.
    simpl in *. pose proof (ms_eval_init _ _ _ _ _ MS) as He.
    unfold apply_t in *.
    assert (HL : forall i, length (d_l C i) = k) by apply Hl.
    assert (HR : forall i, length (d_r C i) = k) by apply Hl.
    assert (HL' : forall i, length (stl (d_l C) i) = k) by (intros; apply Hl).
    assert (HR' : forall i, length (stl (d_r C) i) = k) by (intros; apply Hl).
    destruct d, (d_dir C); simpl in *;
      try (apply ssum_scons in Hx; destruct Hx as (x' & Hx & ->));
      try (apply ssum_scons in Hy; destruct Hy as (y' & Hy & ->));
      do 2 eexists;
      (split; [apply ssum_expl; eauto|]);
      (split; [apply ssum_expr; eauto|]); lia.
  Qed.

  Lemma block_trans_eq C t :
    block_trans M k max_sim (facing C) (d_st C) (d_dir C) = Some t ->
    exists t0, sim_limited M (block_base (d_st C)) (facing C) (block_pos (d_st C) (d_dir C))
                           (d_dir C) max_sim = Some t0 /\
      t = Trans (t_cond t0) (t_details t0) (t_sym t0) (Plain (t_state t0))
                (t_dir t0) (t_steps t0) (t_seen t0).
  Proof.
    unfold block_trans, block_base, block_pos.
    destruct (d_st C); destruct (sim_limited _ _ _ _ _ _) eqn:E; try discriminate;
      intros [= <-]; eauto.
  Qed.

  Lemma block_seen_wf : seen_wf B Rblock.
  Proof.
    intros C c t (Hl & Hs & HR) Ht.
    apply block_trans_eq in Ht. destruct Ht as (t0 & Ht & ->). simpl.
    destruct (sim_limited_sound Gd T M Rp halted MS NG SW _ _ _ _ _ _ _ _ _ HR Ht) as (_ & _ & H).
    exact H.
  Qed.

  Theorem block_msound : msound Gd T B Rblock bhalted.
  Proof.
    constructor.
    - apply list_eqb_eq, (ms_sym_eq _ _ _ _ _ MS).
    - intros [x|x i] [y|y j]; simpl; try (split; congruence).
      + rewrite (ms_st_eq _ _ _ _ _ MS). split; congruence.
      + rewrite andb_true_iff, (ms_st_eq _ _ _ _ _ MS), Nat.eqb_eq.
        split; [intros [-> ->]; auto|]. intros [= -> ->]; auto.
    - intros C C' c E (Hl & Hs & HR). pose proof E as (E1 & E2 & E3 & E4).
      split; [|split].
      + intros i. rewrite <- E1, <- E2. apply Hl.
      + rewrite <- E3. exact Hs.
      + eapply (ms_ext _ _ _ _ _ MS); [|exact HR].
        unfold flatten. rewrite <- (facing_ext _ _ E), <- E3, <- E4.
        unfold win. repeat split; simpl; apply sapp_ext; unfold block_lo, block_ro;
          rewrite <- E4; destruct (d_dir C); auto using expl_ext, expr_ext, stl_ext.
    - intros C c (Hl & Hs & HR). simpl. unfold block_trans.
      assert (Hp : 0 <= block_pos (d_st C) (d_dir C) < Z.of_nat (length (facing C))).
      { rewrite facing_len by assumption. unfold block_pos.
        destruct (d_st C); [destruct (d_dir C)|]; lia. }
      pose proof (sim_limited_total Gd T M Rp halted MS max_sim _ _ _ _ _ _ _ HR Hp) as Ht.
      unfold block_pos, block_base in Ht.
      destruct (d_st C); destruct (sim_limited _ _ _ _ _ _); congruence.
    - intros C c t (Hl & Hs & HR) Ht. simpl in Ht.
      apply block_trans_eq in Ht. destruct Ht as (t0 & Ht & ->).
      destruct (sim_limited_sound Gd T M Rp halted MS NG SW _ _ _ _ _ _ _ _ _ HR Ht) as (Ho & Hlen & _).
      rewrite facing_len in Hlen by assumption.
      unfold outcome; simpl. unfold wout in Ho.
      destruct (t_cond t0); simpl in *; auto.
      + destruct Ho as (A & Bq & C1 & c' & D & F). repeat split; auto.
        exists c'. split; [exact D|]. split; [|split].
        * apply apply_len; auto.
        * destruct (t_dir t0); simpl; exact I.
        * eapply (ms_ext _ _ _ _ _ MS); [|exact F]. now apply flatten_exit.
      + destruct Ho as (A & q & s & tape & ds & H1 & H2 & H3 & H4). split; [exact A|].
        exists q, s, tape, ds. repeat split; auto. intros n Hn. apply H3.
        eapply block_sc_out; eauto.
      + destruct Ho as (A & q & s & tape & ds & H1 & H2 & H3 & H4). split; [exact A|].
        exists q, s, tape, ds. repeat split; auto. intros n Hn. apply H3.
        eapply block_sc_out; eauto.
    - intros C c n (Hl & Hs & HR) Hn. apply (ms_score _ _ _ _ _ MS _ _ _ HR).
      unfold flatten. apply win_sc_iff.
      destruct Hn as (a & b & Ha & Hb & ->). simpl in *.
      pose proof (ms_eval_init _ _ _ _ _ MS) as He.
      assert (Hev : match d_st C with Plain s | OffsetStart s _ => m_eval_st M s end =
                    m_eval_st M (block_base (d_st C))) by (destruct (d_st C); reflexivity).
      rewrite Hev. unfold win_sc, block_lo, block_ro, facing.
      assert (HL : forall i, length (d_l C i) = k) by apply Hl.
      assert (HRr : forall i, length (d_r C i) = k) by apply Hl.
      assert (HL' : forall i, length (stl (d_l C) i) = k) by (intros; apply Hl).
      assert (HR' : forall i, length (stl (d_r C) i) = k) by (intros; apply Hl).
      destruct (d_dir C).
      + eapply (ssum_ext _ _ _ _ (seqv_sym _ _ (scons_stl (d_l C)))) in Ha.
        apply ssum_scons in Ha. destruct Ha as (a' & Ha & ->).
        exists a', b. split; [apply ssum_expl; auto|]. split; [apply ssum_expr; auto|]. lia.
      + eapply (ssum_ext _ _ _ _ (seqv_sym _ _ (scons_stl (d_r C)))) in Hb.
        apply ssum_scons in Hb. destruct Hb as (b' & Hb & ->).
        exists a, b'. split; [apply ssum_expl; auto|]. split; [apply ssum_expr; auto|]. lia.
    - split; [|split].
      + intros i. simpl. now rewrite repeat_length.
      + simpl. destruct offset; simpl; auto.
      + eapply (ms_ext _ _ _ _ _ MS); [|apply (ms_init _ _ _ _ _ MS)].
        apply deq_sym.
        assert (Er : seqv (expr (fun _ => repeat (m_init_sym M) k)) (fun _ => m_init_sym M)).
        { intros i. unfold expr. destruct (nth_in_or_default (i mod k)
             (repeat (m_init_sym M) k) (m_init_sym M)) as [H|H]; auto.
          now apply repeat_spec in H. }
        assert (El : seqv (expl (fun _ => repeat (m_init_sym M) k)) (fun _ => m_init_sym M)).
        { intros i. unfold expl. destruct (nth_in_or_default (i mod k)
             (rev (repeat (m_init_sym M) k)) (m_init_sym M)) as [H|H]; auto.
          apply in_rev in H. now apply repeat_spec in H. }
        assert (Rp1 : forall j s, (forall x, In x j -> x = m_init_sym M) ->
                 seqv s (fun _ => m_init_sym M) -> seqv (sapp j s) (fun _ => m_init_sym M)).
        { intros j s Hj Hsq i. unfold sapp. destruct (nth_error j i) eqn:E.
          - apply Hj. eapply nth_error_In; eauto.
          - apply Hsq. }
        unfold flatten, block_lo, block_ro, facing, win. simpl.
        repeat split; simpl.
        * apply Rp1; [|exact El]. intros x Hx. apply in_rev in Hx.
          apply (repeat_spec k (m_init_sym M)). eapply In_firstn; eauto.
        * apply Rp1; [|exact Er]. intros x Hx.
          apply (repeat_spec k (m_init_sym M)). eapply In_skipn; eauto.
        * destruct offset; reflexivity.
    - simpl. pose proof (ms_eval_init _ _ _ _ _ MS) as He. clear -He.
      induction k; simpl; auto. lia.
  Qed.
End Block.

(** ** Backsymbol machine *)

Section Backsym.
  Context {Sym St : Type} (Gd : Prop) (T : table) (M : machine Sym St)
          (Rp : dcfg Sym St -> config -> Prop) (halted : St -> Prop) (max_sim : nat).

  Definition unback (C : dcfg Sym (backstate Sym St)) : dcfg Sym St :=
    match d_dir C with
    | R => DCfg (scons (b_sym (d_st C)) (d_l C)) (d_r C) (b_state (d_st C)) R
    | L => DCfg (d_l C) (scons (b_sym (d_st C)) (d_r C)) (b_state (d_st C)) L
    end.
  Definition Rback (C : dcfg Sym (backstate Sym St)) (c : config) : Prop := Rp (unback C) c.
  Definition khalted (s : backstate Sym St) : Prop := halted (b_state s).

  Definition back_tape (C : dcfg Sym (backstate Sym St)) : list Sym :=
    match d_dir C with
    | R => [b_sym (d_st C); facing C]
    | L => [facing C; b_sym (d_st C)]
    end.
  Definition back_pos (d : dir) : Z := match d with R => 1 | L => 0 end.
  Definition back_lo (C : dcfg Sym (backstate Sym St)) :=
    match d_dir C with R => d_l C | L => stl (d_l C) end.
  Definition back_ro (C : dcfg Sym (backstate Sym St)) :=
    match d_dir C with R => stl (d_r C) | L => d_r C end.

  Lemma unback_win C :
    deq (unback C) (win (back_lo C) (back_tape C) (back_pos (d_dir C)) (d_dir C)
                        (b_state (d_st C)) (back_ro C)).
  Proof.
    unfold unback, win, back_lo, back_tape, back_pos, back_ro, facing.
    destruct (d_dir C); repeat split; simpl;
      (intros [|i]; simpl; auto; unfold sapp, stl; simpl;
       try (destruct i; simpl; auto; now rewrite Nat.sub_0_r)).
  Qed.

  Hypothesis MS : msound Gd T M Rp halted.
  Hypothesis NG : Gd -> no_give_up M Rp.
  Hypothesis SW : seen_wf M Rp.
  Let B := back_machine M max_sim.

  Lemma unback_exit C x y s d :
    deq (win (back_lo C) [x; y] (match d with R => 2 | L => -1 end) d s (back_ro C))
        (unback (apply_t C (match d with R => x | L => y end)
                         (Back s (match d with R => y | L => x end)) d)).
  Proof.
    unfold unback, win, apply_t, back_lo, back_ro.
    destruct d; simpl; destruct (d_dir C); repeat split; simpl; auto using sapp_nil.
    all: intros [|[|i]]; simpl; auto; unfold sapp; simpl; destruct i; simpl; auto.
  Qed.

  Lemma back_trans_eq C t :
    back_trans M max_sim (facing C) (d_st C) (d_dir C) = Some t ->
    exists t0 x y, sim_limited M (b_state (d_st C)) (back_tape C) (back_pos (d_dir C))
                           (d_dir C) max_sim = Some t0 /\ t_sym t0 = [x; y] /\
      t = Trans (t_cond t0) (t_details t0) (match t_dir t0 with R => x | L => y end)
                (Back (t_state t0) (match t_dir t0 with R => y | L => x end))
                (t_dir t0) (t_steps t0) (t_seen t0).
  Proof.
    unfold back_trans, back_tape, back_pos.
    destruct (d_dir C); destruct (sim_limited _ _ _ _ _ _) as [t0|]; try discriminate;
      destruct (t_sym t0) as [|x [|y [|? ?]]] eqn:Ex; try discriminate;
      intros E; exists t0, x, y; (split; [reflexivity|]); (split; [exact Ex|]);
      destruct (t_dir t0); congruence.
  Qed.

  Lemma back_R C c : Rback C c ->
    Rp (win (back_lo C) (back_tape C) (back_pos (d_dir C)) (d_dir C)
                        (b_state (d_st C)) (back_ro C)) c.
  Proof. intros H. eapply (ms_ext _ _ _ _ _ MS); [apply unback_win|exact H]. Qed.

  Lemma back_seen_wf : seen_wf B Rback.
  Proof.
    intros C c t HR Ht. apply back_R in HR.
    apply back_trans_eq in Ht. destruct Ht as (t0 & x & y & Ht & _ & ->). simpl.
    destruct (sim_limited_sound Gd T M Rp halted MS NG SW _ _ _ _ _ _ _ _ _ HR Ht) as (_ & _ & H).
    exact H.
  Qed.

  Lemma back_sc_out C x y s d n :
    sc B (apply_t C (match d with R => x | L => y end)
                  (Back s (match d with R => y | L => x end)) d) n ->
    win_sc M (back_lo C) (back_ro C) [x; y] s n.
  Proof.
    intros (a & b & Ha & Hb & ->). unfold win_sc, back_lo, back_ro.
    unfold apply_t in *. simpl in *.
    destruct d, (d_dir C); simpl in *;
      try (apply ssum_scons in Ha; destruct Ha as (a' & Ha & ->));
      try (apply ssum_scons in Hb; destruct Hb as (b' & Hb & ->));
      do 2 eexists; (split; [eauto|]); (split; [eauto|]); lia.
  Qed.

  Theorem back_msound : msound Gd T B Rback khalted.
  Proof.
    constructor.
    - apply (ms_sym_eq _ _ _ _ _ MS).
    - intros [x i] [y j]. simpl.
      rewrite andb_true_iff, (ms_st_eq _ _ _ _ _ MS), (ms_sym_eq _ _ _ _ _ MS).
      split; [intros [-> ->]; auto|]. intros [= -> ->]; auto.
    - intros C C' c (E1 & E2 & E3 & E4) HR. unfold Rback in *.
      eapply (ms_ext _ _ _ _ _ MS); [|exact HR].
      unfold unback. rewrite E3, E4. destruct (d_dir C'); repeat split; simpl; auto using scons_ext.
    - intros C c HR. simpl. apply back_R in HR. unfold back_trans.
      assert (Hp : 0 <= back_pos (d_dir C) < Z.of_nat (length (back_tape C))).
      { unfold back_pos, back_tape. destruct (d_dir C); simpl; lia. }
      pose proof (sim_limited_total Gd T M Rp halted MS max_sim _ _ _ _ _ _ _ HR Hp) as Ht.
      destruct (sim_limited M (b_state (d_st C)) (back_tape C) (back_pos (d_dir C))
                            (d_dir C) max_sim) as [t0|] eqn:E0; [|congruence].
      destruct (sim_limited_sound Gd T M Rp halted MS NG SW _ _ _ _ _ _ _ _ _ HR E0)
        as (_ & Hlen & _).
      unfold back_pos, back_tape in *.
      destruct (d_dir C); rewrite E0; simpl in Hlen;
        destruct (t_sym t0) as [|x [|y [|? ?]]]; try discriminate;
        destruct (t_dir t0); discriminate.
    - intros C c t HR Ht. simpl in Ht. apply back_R in HR.
      apply back_trans_eq in Ht. destruct Ht as (t0 & x & y & Ht & Exy & ->).
      destruct (sim_limited_sound Gd T M Rp halted MS NG SW _ _ _ _ _ _ _ _ _ HR Ht) as (Ho & Hlen & _).
      unfold outcome; simpl. unfold wout in Ho. rewrite Exy in Ho.
      destruct (t_cond t0); simpl in *; auto.
      + destruct Ho as (A & Bq & C1 & c' & D & F). repeat split; auto.
        exists c'. split; [exact D|]. unfold Rback.
        eapply (ms_ext _ _ _ _ _ MS); [|exact F]. apply unback_exit.
      + destruct Ho as (A & q & s & tape & ds & H1 & H2 & H3 & H4). split; [exact A|].
        exists q, s, tape, ds. repeat split; auto. intros n Hn. apply H3.
        eapply back_sc_out; eauto.
      + destruct Ho as (A & q & s & tape & ds & H1 & H2 & H3 & H4). split; [exact A|].
        exists q, s, tape, ds. repeat split; auto. intros n Hn. apply H3.
        eapply back_sc_out; eauto.
    - intros C c n HR Hn. unfold Rback in HR. apply (ms_score _ _ _ _ _ MS _ _ _ HR).
      destruct Hn as (a & b & Ha & Hb & ->). simpl in *. unfold unback, sc.
      destruct (d_dir C); simpl.
      + exists a, (m_eval_sym M (b_sym (d_st C)) + b)%nat. split; [exact Ha|]. split.
        * apply ssum_scons. eauto.
        * lia.
      + exists (m_eval_sym M (b_sym (d_st C)) + a)%nat, b. split.
        * apply ssum_scons. eauto.
        * split; [exact Hb|lia].
    - unfold Rback. eapply (ms_ext _ _ _ _ _ MS); [|apply (ms_init _ _ _ _ _ MS)].
      unfold unback. repeat split; simpl; auto. intros [|i]; reflexivity.
    - simpl. apply (ms_eval_init _ _ _ _ _ MS).
  Qed.
End Backsym.
