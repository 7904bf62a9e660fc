(** * The repeat detector of [sim_limited] finds every repeat (Brent's method) *)
Require Import ZArith List Lia Bool Arith.
From Verif Require Import Spec_TM M_Turing_Machine P_Stream P_SimLimited P_Macro.
Import ListNotations.
Open Scope Z_scope.

Lemma pigeon {A} (eqb : A -> A -> bool) (Heq : forall a b, eqb a b = true <-> a = b)
      (f : nat -> A) (l : list A) :
  (forall i, (i <= length l)%nat -> In (f i) l) ->
  exists i j, (i < j <= length l)%nat /\ f i = f j.
Proof.
  intros H.
  assert (D : forall k, (exists i j, (i < j < k)%nat /\ f i = f j) \/ NoDup (map f (seq 0 k))).
  { induction k as [|k IH]; [right; constructor|].
    destruct IH as [(i & j & Hij & E)|ND]; [left; exists i, j; split; [lia|auto]|].
    destruct (existsb (fun i => eqb (f i) (f k)) (seq 0 k)) eqn:Ex.
    - left. apply existsb_exists in Ex. destruct Ex as (i & Hi & E).
      apply in_seq in Hi. apply Heq in E. exists i, k. split; [lia|auto].
    - right. rewrite seq_S, map_app. simpl.
      assert (G : forall (x : list A) z, NoDup x -> ~ In z x -> NoDup (x ++ [z])).
      { induction x as [|y x IH]; simpl; intros z Hx Hz.
        - repeat constructor. auto.
        - inversion Hx; subst. constructor.
          + intros Hin. apply in_app_or in Hin. simpl in Hin. intuition.
          + apply IH; auto. }
      apply G; auto. intros Hin. apply in_map_iff in Hin. destruct Hin as (i & E & Hi).
      assert (X : existsb (fun i => eqb (f i) (f k)) (seq 0 k) = true).
      { apply existsb_exists. exists i. split; auto. now apply Heq. }
      congruence. }
  destruct (D (S (length l))) as [(i & j & Hij & E)|ND].
  - exists i, j. split; [lia|auto].
  - exfalso. apply NoDup_incl_length with (l' := l) in ND.
    + rewrite map_length, seq_length in ND. lia.
    + intros x Hx. apply in_map_iff in Hx. destruct Hx as (i & <- & Hi).
      apply in_seq in Hi. apply H. lia.
Qed.

(** all words of length [k] over an alphabet *)
Fixpoint words {A} (al : list A) (k : nat) : list (list A) :=
  match k with
  | O => [[]]
  | S k => flat_map (fun w => map (fun a => a :: w) al) (words al k)
  end.

Lemma words_spec {A} (al : list A) k w :
  length w = k -> (forall a, In a w -> In a al) -> In w (words al k).
Proof.
  revert w. induction k as [|k IH]; intros w Hl Ha.
  - destruct w; simpl in *; [auto|lia].
  - destruct w as [|a w]; simpl in *; [lia|].
    apply in_flat_map. exists w. split.
    + apply IH; auto.
    + apply (in_map (fun x => x :: w)). apply Ha. now left.
Qed.

Lemma flat_map_const {A B} (f : A -> list B) n l :
  (forall a, length (f a) = n) -> length (flat_map f l) = (length l * n)%nat.
Proof. intros H. induction l; simpl; auto. rewrite app_length, H. lia. Qed.

Lemma words_length {A} (al : list A) k : length (words al k) = (length al ^ k)%nat.
Proof.
  induction k as [|k IH]; simpl; auto.
  rewrite (flat_map_const _ (length al)) by (intros; apply map_length). rewrite IH. lia.
Qed.

Section Repeat.
  Context {Sym St : Type} (M : machine Sym St).
  Hypothesis Seq : forall a b, m_sym_eqb M a b = true <-> a = b.
  Hypothesis Teq : forall a b, m_st_eqb M a b = true <-> a = b.

  (** one window move that keeps running inside the window *)
  Definition wnext (w : wcfg Sym St) : option (wcfg Sym St) :=
    match tget (w_tape w) (w_pos w) with
    | None => None
    | Some symbol =>
      match m_trans M symbol (w_state w) (w_dir w) with
      | None => None
      | Some tr =>
        let w' := WCfg (t_state tr) (t_dir tr) (w_pos w + dz (t_dir tr))
                       (lset (w_tape w) (Z.to_nat (w_pos w)) (t_sym tr)) in
        if cond_eqb (t_cond tr) RUNNING &&
           ((0 <=? w_pos w') && (w_pos w' <? Z.of_nat (length (w_tape w'))))
        then Some w' else None
      end
    end.

  Fixpoint wrun (n : nat) (w : wcfg Sym St) : option (wcfg Sym St) :=
    match n with
    | O => Some w
    | S n => match wnext w with Some w' => wrun n w' | None => None end
    end.

  Lemma wrun_add a : forall b w,
    wrun (a + b) w = match wrun a w with Some w' => wrun b w' | None => None end.
  Proof. induction a; simpl; intros; auto. destruct (wnext w); auto. Qed.

  Lemma wrun_S n w : wrun (S n) w = match wrun n w with Some w' => wnext w' | None => None end.
  Proof.
    replace (S n) with (n + 1)%nat by lia. rewrite wrun_add.
    destruct (wrun n w); auto. simpl. destruct (wnext w0); auto.
  Qed.

  Lemma weqb_refl w : wcfg_eqb M w w = true.
  Proof.
    unfold wcfg_eqb. rewrite !andb_true_iff, dir_eqb_eq, Z.eqb_eq, Teq, (list_eqb_eq _ Seq).
    auto.
  Qed.

  Lemma weqb_eq a b : wcfg_eqb M a b = true <-> a = b.
  Proof.
    split; [|intros ->; apply weqb_refl].
    unfold wcfg_eqb. rewrite !andb_true_iff, dir_eqb_eq, Z.eqb_eq, Teq, (list_eqb_eq _ Seq).
    destruct a, b; simpl. intros [[[-> ->] ->] ->]. reflexivity.
  Qed.

  (** one turn of the loop along a running window configuration *)
  Lemma sim_loop_running max fuel w w' n loops seen old next :
    wnext w = Some w' -> (S loops <= max)%nat ->
    exists n' seen',
      (match old with Some o => wcfg_eqb M w' o = true | None => False end /\
       exists t, sim_loop M max (S fuel) w n loops seen old next = Some t /\
                 t_cond t = INF_REPEAT) \/
      (match old with Some o => wcfg_eqb M w' o = false | None => True end /\
       sim_loop M max (S fuel) w n loops seen old next =
       sim_loop M max fuel w' n' (S loops) seen'
                (if Nat.leb next (S loops) then Some w' else old)
                (if Nat.leb next (S loops) then (next * 2)%nat else next)).
  Proof.
    intros H Hm. unfold wnext in H. simpl.
    destruct (tget (w_tape w) (w_pos w)) as [symbol|]; [|discriminate].
    destruct (m_trans M symbol (w_state w) (w_dir w)) as [tr|]; [|discriminate].
    cbn [w_pos w_tape] in H.
    destruct (cond_eqb (t_cond tr) RUNNING) eqn:Ec; simpl in H; [|discriminate].
    destruct ((0 <=? w_pos w + dz (t_dir tr)) &&
              (w_pos w + dz (t_dir tr) <?
               Z.of_nat (length (lset (w_tape w) (Z.to_nat (w_pos w)) (t_sym tr))))) eqn:Ep;
      [|discriminate].
    injection H as <-.
    exists (n + t_steps tr)%nat, (merge_seen seen n (t_seen tr)).
    match goal with |- context [if ?x then Some (Trans INF_REPEAT _ _ _ _ _ _) else _] =>
                    destruct x eqn:Eo end.
    - left. destruct old; [|discriminate]. split; [exact Eo|]. eexists. split; [reflexivity|].
      reflexivity.
    - right. split; [destruct old; auto|].
      assert (Em : Nat.ltb max (S loops) = false) by (apply Nat.ltb_ge; lia).
      rewrite Em. simpl. reflexivity.
  Qed.

  (** Brent: the run is periodic from [mu] on with period [lam] *)
  Lemma brent w0 mu lam max :
    (forall i, wrun i w0 <> None) ->
    (0 < lam)%nat ->
    (forall i, (mu <= i)%nat -> wrun (i + lam) w0 = wrun i w0) ->
    (3 * Nat.max 128 (Nat.max mu lam) <= max)%nat ->
    exists t, sim_limited M (w_state w0) (w_tape w0) (w_pos w0) (w_dir w0) max = Some t /\
              t_cond t = INF_REPEAT.
  Proof.
    intros Hall Hlam Hper Hmax. set (mx := Nat.max 128 (Nat.max mu lam)) in *.
    assert (Main : forall fuel j w n seen old next,
      wrun j w0 = Some w -> (fuel + j = S max)%nat ->
      ((old = None /\ next = 128%nat /\ (j < 128)%nat) \/
       (exists s o, old = Some o /\ wrun s w0 = Some o /\ next = (2 * s)%nat /\
          (128 <= s)%nat /\ (s <= j < 2 * s)%nat /\ (s <= 2 * mx)%nat /\
          ((Nat.max mu lam <= s)%nat -> (j < s + lam)%nat))) ->
      exists t, sim_loop M max fuel w n j seen old next = Some t /\ t_cond t = INF_REPEAT).
    { induction fuel as [|fuel IH]; intros j w n seen old next Hw Hf Hinv.
      - exfalso. destruct Hinv as [(_ & _ & Hj)|(s & o & _ & _ & _ & _ & Hj & Hs & Hm)].
        + lia.
        + destruct (le_lt_dec (Nat.max mu lam) s) as [Hle|Hlt].
          * specialize (Hm Hle). lia.
          * lia.
      - destruct (wnext w) as [w'|] eqn:Ew.
        2:{ exfalso. apply (Hall (S j)). rewrite wrun_S, Hw. exact Ew. }
        assert (HwS : wrun (S j) w0 = Some w') by (rewrite wrun_S, Hw; exact Ew).
        assert (Hjm : (S j <= max)%nat).
        { destruct Hinv as [(_ & _ & Hj)|(s & o & _ & _ & _ & _ & Hj & Hs & Hm)].
          - lia.
          - destruct (le_lt_dec (Nat.max mu lam) s) as [Hle|Hlt].
            + specialize (Hm Hle). lia.
            + lia. }
        destruct (sim_loop_running max fuel w w' n j seen old next Ew Hjm)
          as (n' & seen' & [(_ & H)|(Hne & ->)]); [exact H|].
        apply IH; [exact HwS|lia|].
        destruct (Nat.leb next (S j)) eqn:En.
        + (* saved *)
          right. exists (S j), w'. apply Nat.leb_le in En.
          destruct Hinv as [(-> & -> & Hj)|(s & o & -> & Ho & -> & Hs8 & Hj & Hs & Hm)].
          * assert (j = 127)%nat by lia. subst j.
            repeat split; try lia; auto.
          * assert (E2 : S j = (2 * s)%nat) by lia.
            assert (Hlt : (s < Nat.max mu lam)%nat).
            { destruct (le_lt_dec (Nat.max mu lam) s) as [Hle|]; auto. exfalso.
              specialize (Hm Hle).
              (* the previous check at s + lam = 2s would have matched *)
              assert (S j = s + lam)%nat by lia.
              assert (wrun (S j) w0 = wrun s w0) by (rewrite H; apply Hper; lia).
              assert (w' = o) by congruence. subst o. rewrite weqb_refl in Hne. discriminate. }
            repeat split; try lia; auto.
        + apply Nat.leb_gt in En.
          destruct Hinv as [(-> & -> & Hj)|(s & o & -> & Ho & -> & Hs8 & Hj & Hs & Hm)].
          * left. repeat split; auto.
          * right. exists s, o. repeat split; try lia; auto.
            intros Hle. specialize (Hm Hle).
            destruct (Nat.eq_dec (S j) (s + lam)) as [E2|]; [|lia]. exfalso.
            assert (wrun (S j) w0 = wrun s w0) by (rewrite E2; apply Hper; lia).
            assert (w' = o) by congruence. subst o. rewrite weqb_refl in Hne. discriminate. }
    unfold sim_limited. apply Main; [destruct w0; reflexivity|lia|left; repeat split; lia].
  Qed.

  (** giving up needs [max] running moves *)
  Lemma give_up_long max : forall fuel w n j seen old next t,
    (fuel + j = S max)%nat ->
    (forall w' s, wrun s w = Some w' ->
       forall sym tr, tget (w_tape w') (w_pos w') = Some sym ->
       m_trans M sym (w_state w') (w_dir w') = Some tr -> t_cond tr <> GAVE_UP) ->
    sim_loop M max fuel w n j seen old next = Some t -> t_cond t = GAVE_UP ->
    forall i, (i + j <= max)%nat -> wrun i w <> None.
  Proof.
    induction fuel as [|fuel IH]; simpl; [discriminate|].
    intros w n j seen old next t Hf Hng E Hg i Hi.
    destruct i as [|i]; [discriminate|].
    assert (Hng0 := Hng w O eq_refl).
    destruct (tget (w_tape w) (w_pos w)) as [symbol|] eqn:Eg; [|discriminate].
    destruct (m_trans M symbol (w_state w) (w_dir w)) as [tr|] eqn:Et; [|discriminate].
    specialize (Hng0 _ _ eq_refl Et).
    match type of E with (if ?x then _ else _) = _ => destruct x end.
    { injection E as <-. discriminate. }
    assert (Em : Nat.ltb max (S j) = false) by (apply Nat.ltb_ge; lia).
    rewrite Em in E.
    destruct (cond_eqb (t_cond tr) RUNNING) eqn:Ec; simpl in E.
    2:{ injection E as <-. simpl in Hg. congruence. }
    match type of E with (if negb ?x then _ else _) = _ => destruct x eqn:Ep end.
    2:{ simpl in E. injection E as <-. discriminate. }
    simpl in E.
    assert (Ew : wnext w = Some (WCfg (t_state tr) (t_dir tr) (w_pos w + dz (t_dir tr))
                       (lset (w_tape w) (Z.to_nat (w_pos w)) (t_sym tr)))).
    { unfold wnext. rewrite Eg, Et. cbn [w_pos w_tape]. now rewrite Ec, Ep. }
    simpl. rewrite Ew.
    eapply IH with (j := S j) (t := t); [lia| |exact E|exact Hg|lia].
    intros w' s Hs. apply (Hng w' (S s)). simpl. rewrite Ew. exact Hs.
  Qed.
End Repeat.

(** ** A machine with finitely many reachable symbols and states *)
Definition finite_rel {Sym St} (Rp : dcfg Sym St -> config -> Prop)
           (syms : list Sym) (sts : list St) : Prop :=
  forall C c, Rp C c -> (forall i, In (d_l C i) syms /\ In (d_r C i) syms) /\ In (d_st C) sts.

(** number of configurations of a window of length [k] *)
Definition window_configs (nsts nsyms k : nat) : nat := (nsts * 2 * k * nsyms ^ k)%nat.

(** a limit large enough for every window of length [k] *)
Definition enough_loops (nsts nsyms k max : nat) : Prop :=
  (3 * Nat.max 128 (window_configs nsts nsyms k) <= max)%nat.

Section NoGiveUp.
  Context {Sym St : Type} (Gd : Prop) (T : table) (M : machine Sym St)
          (Rp : dcfg Sym St -> config -> Prop) (halted : St -> Prop).
  Context (syms : list Sym) (sts : list St).
  Hypothesis MS : msound Gd T M Rp halted.
  Hypothesis NG : no_give_up M Rp.
  Hypothesis FR : finite_rel Rp syms sts.

  Lemma wrun_inv i : forall w w' l r c,
    Rp (winw l w r) c -> 0 <= w_pos w < Z.of_nat (length (w_tape w)) ->
    wrun M i w = Some w' ->
    exists c', Rp (winw l w' r) c' /\ 0 <= w_pos w' < Z.of_nat (length (w_tape w')) /\
               length (w_tape w') = length (w_tape w).
  Proof.
    induction i as [|i IH]; simpl; intros w w' l r c HR Hp E.
    - injection E as <-. eauto.
    - destruct (wnext M w) as [w1|] eqn:E1; [|discriminate].
      unfold wnext in E1.
      destruct (tget (w_tape w) (w_pos w)) as [symbol|] eqn:Eg; [|discriminate].
      destruct (m_trans M symbol (w_state w) (w_dir w)) as [tr|] eqn:Et; [|discriminate].
      cbn [w_pos w_tape] in E1.
      destruct (cond_eqb (t_cond tr) RUNNING) eqn:Ec; simpl in E1; [|discriminate].
      match type of E1 with (if ?x then _ else _) = _ => destruct x eqn:Ep end; [|discriminate].
      injection E1 as <-.
      apply andb_true_iff in Ep. destruct Ep as [Ep1 Ep2].
      apply Z.leb_le in Ep1. apply Z.ltb_lt in Ep2.
      assert (Hface : facing (winw l w r) = symbol) by now apply win_facing.
      assert (Htr : m_trans M (facing (winw l w r)) (d_st (winw l w r)) (d_dir (winw l w r))
                  = Some tr) by (rewrite Hface; exact Et).
      pose proof (ms_step _ _ _ _ _ MS _ _ _ HR Htr) as Ho.
      unfold outcome in Ho. destruct (t_cond tr); simpl in Ec; try discriminate.
      destruct Ho as (_ & _ & _ & c' & _ & HR').
      set (w1 := WCfg (t_state tr) (t_dir tr) (w_pos w + dz (t_dir tr))
                      (lset (w_tape w) (Z.to_nat (w_pos w)) (t_sym tr))) in *.
      assert (HR1 : Rp (winw l w1 r) c').
      { eapply (ms_ext _ _ _ _ _ MS); [|exact HR'].
        unfold winw; simpl. eapply win_apply; eauto. }
      destruct (IH w1 w' l r c' HR1 (conj Ep1 Ep2) E) as (c2 & X & Y & Z0).
      exists c2. split; [exact X|]. split; [exact Y|]. rewrite Z0. simpl. apply lset_length.
  Qed.

  Lemma win_members l w r c :
    Rp (winw l w r) c ->
    In (w_state w) sts /\ forall a, In a (w_tape w) -> In a syms.
  Proof.
    intros H. apply FR in H. destruct H as (H1 & H2). split; [exact H2|].
    intros a Ha. unfold winw, win in H1; simpl in H1.
    rewrite <- (firstn_skipn (winpos (w_dir w) (w_pos w)) (w_tape w)) in Ha.
    apply in_app_or in Ha. destruct Ha as [Ha|Ha].
    - apply in_rev, In_nth_error in Ha. destruct Ha as (i & Hi).
      destruct (H1 i) as [X _]. unfold sapp in X. now rewrite Hi in X.
    - apply In_nth_error in Ha. destruct Ha as (i & Hi).
      destruct (H1 i) as [_ X]. unfold sapp in X. now rewrite Hi in X.
  Qed.

  Definition all_wcfg (k : nat) : list (wcfg Sym St) :=
    flat_map (fun s => flat_map (fun d => flat_map (fun p =>
      map (fun tape => WCfg s d (Z.of_nat p) tape) (words syms k)) (seq 0 k)) [L; R]) sts.

  Lemma all_wcfg_length k :
    length (all_wcfg k) = window_configs (length sts) (length syms) k.
  Proof.
    unfold all_wcfg, window_configs.
    rewrite (flat_map_const _ (2 * (k * length syms ^ k))%nat).
    - lia.
    - intros s. rewrite (flat_map_const _ (k * length syms ^ k)%nat); [simpl; lia|].
      intros d. rewrite (flat_map_const _ (length syms ^ k)%nat).
      + now rewrite seq_length.
      + intros p. now rewrite map_length, words_length.
  Qed.

  Lemma all_wcfg_spec k w :
    In (w_state w) sts -> (forall a, In a (w_tape w) -> In a syms) ->
    length (w_tape w) = k -> 0 <= w_pos w < Z.of_nat k -> In w (all_wcfg k).
  Proof.
    intros Hs Ha Hl Hp. unfold all_wcfg.
    apply in_flat_map. exists (w_state w). split; [exact Hs|].
    apply in_flat_map. exists (w_dir w). split; [destruct (w_dir w); simpl; auto|].
    apply in_flat_map. exists (Z.to_nat (w_pos w)). split; [apply in_seq; lia|].
    apply in_map_iff. exists (w_tape w). split.
    - rewrite Z2Nat.id by lia. destruct w; reflexivity.
    - now apply words_spec.
  Qed.

  (** a run that stays in the window for long enough is caught *)
  Theorem sim_limited_no_give_up max s tape pos d t l r c :
    Rp (win l tape pos d s r) c -> 0 <= pos < Z.of_nat (length tape) ->
    enough_loops (length sts) (length syms) (length tape) max ->
    sim_limited M s tape pos d max = Some t -> t_cond t <> GAVE_UP.
  Proof.
    intros HR Hp Hmax E Hg. set (w0 := WCfg s d pos tape).
    assert (Hdef : forall i, (i <= max)%nat -> wrun M i w0 <> None).
    { intros i Hi. eapply give_up_long with (max := max) (fuel := S max) (j := O); [lia| |exact E|exact Hg|lia].
      intros w' j Hj sym tr Hs Ht.
      destruct (wrun_inv j w0 w' l r c HR Hp Hj) as (c' & HR' & _).
      assert (Hface : facing (winw l w' r) = sym) by now apply win_facing.
      eapply NG; [exact HR'|]. rewrite Hface. exact Ht. }
    pose proof (all_wcfg_length (length tape)) as HN.
    set (N := window_configs (length sts) (length syms) (length tape)) in *.
    unfold enough_loops in Hmax. fold N in Hmax.
    set (f := fun i => match wrun M i w0 with Some w => w | None => w0 end).
    destruct (pigeon (wcfg_eqb M) (weqb_eq M (ms_sym_eq _ _ _ _ _ MS) (ms_st_eq _ _ _ _ _ MS))
                     f (all_wcfg (length tape))) as (i & j & Hij & Ef).
    { intros i Hi. unfold f.
      assert (Hi' : (i <= max)%nat) by lia.
      specialize (Hdef i Hi'). destruct (wrun M i w0) as [w|] eqn:Ew; [|congruence].
      destruct (wrun_inv i w0 w l r c HR Hp Ew) as (c' & HR' & Hp' & Hl').
      destruct (win_members _ _ _ _ HR') as (X & Y).
      apply all_wcfg_spec; auto. rewrite Hl' in Hp'. exact Hp'. }
    assert (Di := Hdef i ltac:(lia)). assert (Dj := Hdef j ltac:(lia)).
    unfold f in Ef. destruct (wrun M i w0) as [wi|] eqn:Ei; [|congruence].
    destruct (wrun M j w0) as [wj|] eqn:Ej; [|congruence]. subst wj.
    assert (Per : forall m, (i <= m)%nat -> wrun M (m + (j - i)) w0 = wrun M m w0).
    { intros m Hm. replace (m + (j - i))%nat with (j + (m - i))%nat by lia.
      rewrite wrun_add, Ej. replace m with (i + (m - i))%nat at 2 by lia.
      now rewrite wrun_add, Ei. }
    assert (Hall : forall m, wrun M m w0 <> None).
    { intros m. induction m as [m IHm] using lt_wf_ind.
      destruct (le_lt_dec m j) as [Hle|Hlt]; [apply Hdef; lia|].
      replace m with ((m - (j - i)) + (j - i))%nat by lia. rewrite Per by lia.
      apply IHm. lia. }
    destruct (brent M (ms_sym_eq _ _ _ _ _ MS) (ms_st_eq _ _ _ _ _ MS) w0 i (j - i) max Hall)
      as (t' & Et' & Ec').
    - lia.
    - exact Per.
    - lia.
    - simpl in Et'. rewrite E in Et'. injection Et' as <-. congruence.
  Qed.
End NoGiveUp.

(** ** The layers of macro machines keep these properties *)

Lemma simple_finite n m :
  finite_rel (Rsimple n m) (seq 0 m) (map SRun (seq 0 n)).
Proof.
  intros C c (H1 & H2 & H3 & _). split.
  - intros i. destruct (H3 i). split; apply in_seq; lia.
  - rewrite H1. apply in_map, in_seq. lia.
Qed.

Section Layers.
  Context {Sym St : Type} (Gd : Prop) (T : table) (M : machine Sym St)
          (Rp : dcfg Sym St -> config -> Prop) (halted : St -> Prop).
  Context (syms : list Sym) (sts : list St).
  Hypothesis MS : msound Gd T M Rp halted.
  Hypothesis NG : no_give_up M Rp.
  Hypothesis FR : finite_rel Rp syms sts.

  Lemma block_no_give_up k offset max_sim : (0 < k)%nat ->
    enough_loops (length sts) (length syms) k max_sim ->
    no_give_up (block_machine M k offset max_sim) (Rblock M Rp k).
  Proof.
    intros Hk He C c t (Hl & Hs & HR) Ht. simpl in Ht.
    apply block_trans_eq in Ht. destruct Ht as (t0 & Ht & ->). simpl.
    assert (Hlen : length (facing C) = k) by (apply facing_len; auto).
    eapply sim_limited_no_give_up with (T := T); [exact MS|exact NG|exact FR|exact HR| | |exact Ht].
    - rewrite Hlen. unfold block_pos. destruct (d_st C); [destruct (d_dir C)|]; lia.
    - now rewrite Hlen.
  Qed.

  Lemma back_no_give_up max_sim :
    enough_loops (length sts) (length syms) 2 max_sim ->
    no_give_up (back_machine M max_sim) (Rback Rp).
  Proof.
    intros He C c t HR Ht. simpl in Ht.
    apply (back_R Gd T M Rp halted MS) in HR.
    apply back_trans_eq in Ht. destruct Ht as (t0 & x & y & Ht & _ & ->). simpl.
    assert (Hlen : length (back_tape C) = 2%nat) by (unfold back_tape; destruct (d_dir C); auto).
    eapply sim_limited_no_give_up with (T := T); [exact MS|exact NG|exact FR|exact HR| | |exact Ht].
    - rewrite Hlen. unfold back_pos. destruct (d_dir C); simpl; lia.
    - now rewrite Hlen.
  Qed.

  (** symbols of blocks and states of the macro machines *)
  Lemma sapp_members (l : list Sym) s :
    (forall i, In (sapp l s i) syms) -> forall a, In a l -> In a syms.
  Proof.
    intros H a Ha. apply In_nth_error in Ha. destruct Ha as (i & Hi).
    specialize (H i). unfold sapp in H. now rewrite Hi in H.
  Qed.

  Lemma sapp_members_tl (l : list Sym) s :
    (forall i, In (sapp l s i) syms) -> forall i, In (s i) syms.
  Proof.
    intros H i. specialize (H (length l + i)%nat). unfold sapp in H.
    rewrite (proj2 (nth_error_None l _)) in H by lia.
    now replace (length l + i - length l)%nat with i in H by lia.
  Qed.

  Lemma block_finite k : (0 < k)%nat ->
    finite_rel (Rblock M Rp k) (words syms k)
               (flat_map (fun s => Plain s :: map (OffsetStart s) (seq 0 k)) sts).
  Proof.
    intros Hk C c (Hl & Hs & HR). apply FR in HR. destruct HR as (H1 & H2).
    unfold flatten, win in *. simpl in H1, H2.
    set (p := winpos _ _) in H1.
    assert (Hf : forall a, In a (facing C) -> In a syms).
    { intros a Ha. rewrite <- (firstn_skipn p (facing C)) in Ha. apply in_app_or in Ha.
      destruct Ha as [Ha|Ha].
      - apply (sapp_members (rev (firstn p (facing C))) (block_lo M k C)).
        + intros i. apply H1.
        + now apply in_rev in Ha.
      - apply (sapp_members (skipn p (facing C)) (block_ro M k C)); auto. intros i. apply H1. }
    assert (Hlo : forall i, In (block_lo M k C i) syms).
    { apply (sapp_members_tl (rev (firstn p (facing C)))). intros i. apply H1. }
    assert (Hro : forall i, In (block_ro M k C i) syms).
    { apply (sapp_members_tl (skipn p (facing C))). intros i. apply H1. }
    assert (HL : forall i, length (d_l C i) = k) by apply Hl.
    assert (HR' : forall i, length (d_r C i) = k) by apply Hl.
    assert (Er : forall r, (forall i, length (r i) = k) ->
                 (forall i, In (expr M k r i) syms) -> forall i a, In a (r i) -> In a syms).
    { intros r Hr Hi i a Ha. apply (In_nth _ _ (m_init_sym M)) in Ha.
      destruct Ha as (j & Hj & <-). rewrite Hr in Hj.
      specialize (Hi (i * k + j)%nat). unfold expr in Hi.
      rewrite Nat.div_add_l, Nat.div_small, Nat.add_0_r in Hi by lia.
      rewrite Nat.add_comm, Nat.mod_add, Nat.mod_small in Hi by lia. exact Hi. }
    assert (El : forall r, (forall i, length (r i) = k) ->
                 (forall i, In (expl M k r i) syms) -> forall i a, In a (r i) -> In a syms).
    { intros r Hr Hi i a Ha.
      apply (Er (fun i => rev (r i))) with (i := i).
      - intros; now rewrite rev_length.
      - intros j. apply (Hi j).
      - now apply -> in_rev. }
    split.
    - assert (G : (forall i a, In a (d_l C i) -> In a syms) /\
                  (forall i a, In a (d_r C i) -> In a syms)).
      { unfold block_lo, block_ro, facing in *. destruct (d_dir C).
        - split.
          + intros [|i] a Ha; [auto|]. apply (El (stl (d_l C))) with (i := i); auto.
            intros j; apply Hl.
          + apply Er; auto.
        - split.
          + apply El; auto.
          + intros [|i] a Ha; [auto|]. apply (Er (stl (d_r C))) with (i := i); auto.
            intros j; apply Hl. }
      destruct G as [G1 G2]. intros i. split; apply words_spec; auto; intros a; [apply G1|apply G2].
    - apply in_flat_map. exists (block_base (d_st C)). split; [exact H2|].
      destruct (d_st C) as [s|s off]; simpl; [auto|].
      right. apply in_map, in_seq. lia.
  Qed.

  Lemma back_finite :
    finite_rel (Rback Rp) syms (flat_map (fun s => map (Back s) syms) sts).
  Proof.
    intros C c HR. unfold Rback in HR. apply FR in HR. destruct HR as (H1 & H2).
    unfold unback in *. destruct (d_dir C); simpl in *.
    - split.
      + intros i. split; [apply H1|]. apply (proj2 (H1 (S i))).
      + apply in_flat_map. exists (b_state (d_st C)). split; [exact H2|].
        apply in_map_iff. exists (b_sym (d_st C)). split.
        * destruct (d_st C); reflexivity.
        * apply (proj2 (H1 O)).
    - split.
      + intros i. split; [apply (proj1 (H1 (S i)))|apply H1].
      + apply in_flat_map. exists (b_state (d_st C)). split; [exact H2|].
        apply in_map_iff. exists (b_sym (d_st C)). split.
        * destruct (d_st C); reflexivity.
        * apply (proj1 (H1 O)).
  Qed.
End Layers.
