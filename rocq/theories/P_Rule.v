(** * Every rule that [prove_rule] returns is true for all values of its variables *)
Require Import ZArith List Lia Bool Arith QArith Qround Permutation.
From Verif Require Import Spec_TM M_Turing_Machine P_Stream P_SimLimited P_Macro P_Pump
     M_Expr P_Expr M_Tape M_Simulator P_Tape P_Simulator M_Prover P_Lin P_GenSim P_Form P_GenLoop P_Nums.
Import ListNotations.
Open Scope Z_scope.

(** ** substitutions as changes of the assignment *)
Definition ssub (sg : nat -> Z) (s : subs) : nat -> Z :=
  fun x => match subs_get x s with Some u => zev sg u | None => sg x end.
Lemma zev_ssub sg v s w : lv v -> lsubs s -> v_subst v s = Some w -> zev sg w = zev (ssub sg s) v.
Proof.
  intros Hv Hs E. eapply zev_subst; eauto. intros x _. unfold ssub.
  destruct (subs_get x s) as [u|] eqn:Eu; auto. split; auto. eapply subs_get_lin; eauto.
Qed.
Lemma subs_get_nodup s x u : NoDup (map fst s) -> In (x, u) s -> subs_get x s = Some u.
Proof.
  induction s as [|[y w] s IH]; simpl; intros N H; [tauto|]. inversion N as [|? ? Hy N']; subst.
  destruct H as [H|H].
  - injection H as -> ->. now rewrite Nat.eqb_refl.
  - destruct (Nat.eqb x y) eqn:E; auto. apply Nat.eqb_eq in E. subst y.
    exfalso. apply Hy. apply in_map_iff. exists (x, u). auto.
Qed.
Lemma ez_ext sg sg' ns V : incl (flat_map nvars ns) V -> (forall x, In x V -> sg x = sg' x) -> ez sg ns = ez sg' ns.
Proof.
  intros Hi H. unfold ez. apply map_ext_in. intros [v|] Hv; auto. simpl. f_equal.
  apply zev_ext. intros x Hx. apply H, Hi. apply in_flat_map. exists (Some v). auto.
Qed.
Lemma ed_ext sg sg' d V : dvars d V -> (forall x, In x V -> sg x = sg' x) -> ed sg d = ed sg' d.
Proof.
  intros Hi H. unfold ed. apply map_ext_in. intros [k v] Hv. simpl. f_equal.
  apply zev_ext. intros x Hx. apply H. unfold dvars in Hi. rewrite Forall_forall in Hi.
  exact (Hi _ Hv x Hx).
Qed.

Lemma map_opt_ok {A B} (R : A -> B -> Prop) (f : A -> option B) l :
  (forall a, In a l -> exists b, f a = Some b /\ R a b) ->
  exists bs, map_opt f l = Some bs /\ Forall2 R l bs.
Proof.
  induction l as [|a l IH]; simpl; intros H; [eauto|].
  destruct (H a) as (b & -> & Hb); auto. destruct IH as (bs & -> & Hbs); eauto.
Qed.
Lemma seen_map_opt_ok {N N'} (R : N -> N' -> Prop) (f : N -> option N') (d : ndict N) :
  (forall k v, In (k, v) d -> exists w, f v = Some w /\ R v w) ->
  exists d', seen_map_opt f d = Some d' /\
    Forall2 (fun kv kw => fst kv = fst kw /\ R (snd kv) (snd kw)) d d'.
Proof.
  intros H. apply (map_opt_ok (fun kv kw => fst kv = fst kw /\ R (snd kv) (snd kw))).
  intros [k v] Hk. destruct (H k v Hk) as (w & E & Hw). simpl. rewrite E. exists (k, w). auto.
Qed.

Section Rule.
  Context {Sym St : Type}.
  Variables (Gd : Prop) (T : table) (M : machine Sym St) (Rp : dcfg Sym St -> config -> Prop)
            (halted : St -> Prop).
  Hypothesis MS : msound Gd T M Rp halted.
  Hypothesis SW : seen_wf M Rp.
  Hypothesis PU : pumpable Rp.
  Notation i0 := (m_init_sym M).
  Notation wf := (twf i0).
  Notation den := (tden i0).

  (** from the tape [t1] the base machine reaches [t2] after [n] steps *)
  Definition trans_ok (q : St) (t1 t2 : ctape Z Sym) (n : Z) (d : ndict Z) : Prop :=
    wf t2 /\ forall c, Rp (den t1 q) c ->
      0 < n /\ exists c', steps T (Z.to_nat n) c = Some c' /\ Rp (den t2 q) c' /\ zseen_ok T c n d.

  (** ** the starting point *)
  Definition irel (m : ndict Q) (n : option Z) (o : option val) : Prop :=
    match n with
    | None => o = None
    | Some z => if z =? 1 then o = Some (VS (inject_Z 1))
                else exists x c, o = Some (VE (var_plus x (inject_Z c))) /\ 1 <= c <= z /\
                                 nd_get x m = Some (inject_Z c)
    end.
  Definition pos (o : option Z) : Prop := match o with Some z => 1 <= z | None => True end.

  Lemma nd_get_in {N} x (m : ndict N) a : nd_get x m = Some a -> In x (map fst m).
  Proof.
    induction m as [|[y b] m IH]; simpl; [discriminate|]. destruct (Nat.eqb x y) eqn:E; auto.
    intros _. apply Nat.eqb_eq in E. auto.
  Qed.

  Lemma gen_nums_ok ns : Forall pos ns -> forall next, exists nx vs m,
    gen_nums next ns = Some (nx, vs, m) /\ (next <= nx)%nat /\ map fst m = flat_map nvars vs /\
    (forall x, In x (map fst m) -> (next <= x < nx)%nat) /\ NoDup (map fst m) /\
    Forall2 (irel m) ns vs /\ minv (map fst m) m.
  Proof.
    induction 1 as [|o ns Hp _ IH]; intros next.
    - exists next, [], []. simpl. repeat split; auto; try constructor; try tauto. intros x [].
    - destruct o as [z|]; simpl.
      2:{ destruct (IH next) as (nx & vs & m & -> & H1 & H2 & H3 & H4 & H5 & H6).
          exists nx, (None :: vs), m. split; [reflexivity|]. split; [exact H1|]. split; [exact H2|].
          split; [exact H3|]. split; [exact H4|]. split; [constructor; simpl; auto|exact H6]. }
      simpl in Hp. destruct (z =? 1) eqn:E1.
      + destruct (IH next) as (nx & vs & m & -> & H1 & H2 & H3 & H4 & H5 & H6).
        apply Z.eqb_eq in E1. subst z.
        exists nx, (Some (VS (inject_Z 1)) :: vs), m. split; [reflexivity|]. split; [exact H1|]. split; [exact H2|].
        split; [exact H3|]. split; [exact H4|]. split; [constructor; simpl; auto|exact H6].
      + assert (E0 : z =? 0 = false) by (apply Z.eqb_neq; lia). rewrite E0.
        destruct (IH (S next)) as (nx & vs & m & -> & H1 & H2 & H3 & H4 & H5 & H6).
        set (c := if z >? 2^20 then 2^20 else z).
        assert (Hc : 1 <= c <= z).
        { unfold c. destruct (z >? 2^20) eqn:Eg; [apply Z.gtb_lt in Eg; lia|lia]. }
        do 3 eexists. split; [reflexivity|]. split; [lia|].
        split; [simpl; now rewrite H2|].
        split; [simpl; intros x [<-|Hx]; [lia|apply H3 in Hx; lia]|].
        split; [simpl; constructor; auto; intros Hx; apply H3 in Hx; lia|].
        assert (Hs : forall x a, nd_get x m = Some a -> nd_get x ((next, inject_Z c) :: m) = Some a).
        { intros x a E. simpl. destruct (Nat.eqb x next) eqn:Ex; auto. apply Nat.eqb_eq in Ex. subst.
          apply nd_get_in, H3 in E. lia. }
        split.
        * constructor.
          -- simpl. rewrite E1. exists next, c. split; auto. split; auto. now rewrite Nat.eqb_refl.
          -- eapply Forall2_impl; [|exact H5]. intros [y|] o; simpl irel; auto.
             destruct (y =? 1); auto. intros (x & d & Eo & Hd & Ex). exists x, d.
             split; [auto|]. split; [auto|]. now apply Hs.
        * intros x [<-|Hx].
          -- exists c. simpl. now rewrite Nat.eqb_refl.
          -- destruct (H6 x Hx) as (a & Ea). exists a. now apply Hs.
  Qed.

  Lemma wf_pos t : wf t -> Forall pos (nums t).
  Proof.
    intros [A B].
    assert (G : forall h, hwf i0 h -> Forall pos (map k_num h)).
    { induction 1; simpl; constructor; simpl; auto. lia. }
    unfold nums. apply Forall_app. split; apply Forall_rev; auto.
  Qed.

  Lemma irel_av m0 n o : pos n -> irel m0 n o -> match o with Some v => av m0 v | None => True end.
  Proof.
    destruct n as [z|]; simpl.
    - intros Hz. destruct (z =? 1).
      + intros ->. simpl. exists 1. split; auto. lia.
      + intros (x & c & -> & Hc & E). simpl. exists x, c, c. split; auto. split; auto. lia.
    - intros _ ->. exact I.
  Qed.

  (** the symbols of the tape do not change with the counts *)
  Lemma hden_occ (h : list (blk Z Sym)) i : hwf i0 h -> In (hden i0 h i) (map k_sym h).
  Proof.
    intros H. revert i. induction H as [|s z h Hz H IH]; intros i; simpl; auto.
    unfold sapp. destruct (nth_error (repeat s (Z.to_nat z)) i) eqn:E.
    - apply nth_error_In, repeat_spec in E. auto.
    - right. apply IH.
  Qed.
  Lemma occ_hden (h : list (blk Z Sym)) s : hwf i0 h -> In s (map k_sym h) -> exists i, hden i0 h i = s.
  Proof.
    intros H. induction H as [|s' z h Hz H IH]; simpl.
    - intros [<-|[]]. exists 0%nat. reflexivity.
    - intros [<-|Hs].
      + exists 0%nat. unfold sapp. destruct (Z.to_nat z) eqn:E; [lia|]. reflexivity.
      + destruct (IH Hs) as [i Hi]. exists (Z.to_nat z + i)%nat. unfold sapp.
        destruct (nth_error (repeat s' (Z.to_nat z)) (Z.to_nat z + i)) eqn:E.
        * assert (nth_error (repeat s' (Z.to_nat z)) (Z.to_nat z + i) <> None) by congruence.
          apply nth_error_Some in H0. rewrite repeat_length in H0. lia.
        * rewrite repeat_length. now replace (Z.to_nat z + i - Z.to_nat z)%nat with i by lia.
  Qed.
  Lemma pump_tape t t' q c : wf t -> wf t' -> shape t = shape t' -> Rp (den t q) c ->
    exists c', Rp (den t' q) c'.
  Proof.
    intros [A B] [A' B'] E R. injection E as Ed El Er. eapply PU; [exact R| | | |]; simpl; auto.
    - intros i. pose proof (hden_occ _ i A') as H. rewrite <- El in H.
      destruct (occ_hden _ _ A H) as (j & Hj). left. exists j. exact Hj.
    - intros i. pose proof (hden_occ _ i B') as H. rewrite <- Er in H.
      destruct (occ_hden _ _ B H) as (j & Hj). right. exists j. exact Hj.
  Qed.

  Lemma shape_et sg (t : ctape val Sym) : shape (et sg t) = shape t.
  Proof. destruct t as [d l r]. unfold shape, et. cbn [ct_dir ct_l ct_r]. now rewrite !map_map. Qed.

  Definition on_valid (V : list nat) (m : ndict Q) (sg : nat -> Z) : Prop :=
    forall x a, In x V -> nd_get x m = Some (inject_Z a) -> 1 <= sg x + a.
  Lemma on_valid_ex V m sg : on_valid V m sg ->
    exists sg', valid sg' m /\ forall x, In x V -> sg' x = sg x.
  Proof.
    intros H. exists (fun x => if in_dec Nat.eq_dec x V then sg x
                              else match nd_get x m with Some p => 1 - Qnum p | None => 0 end).
    split.
    - intros x a E. destruct (in_dec Nat.eq_dec x V); [eapply H; eauto|]. rewrite E.
      cbn [Qnum inject_Z]. lia.
    - intros x Hx. destruct (in_dec Nat.eq_dec x V); tauto.
  Qed.

  Lemma loop_ok t q c next nx inits m0 delta : wf t -> Rp (den t q) c ->
    gen_nums next (nums t) = Some (nx, inits, m0) ->
    let V := flat_map nvars inits in
    Forall2 (irel m0) (nums t) inits /\ NoDup V /\
    gen_loop M delta (gen_sim0 t q inits) m0 <> PExn /\
    forall s m, gen_loop M delta (gen_sim0 t q inits) m0 = POk (s, m) ->
      mle m m0 /\ ginv M V m s /\
      forall sg, on_valid V m sg ->
        wf (et sg (s_tape s)) /\
        forall c0, Rp (den (mk (shape t) (ez sg inits)) q) c0 ->
          Z.of_nat delta <= zev sg (s_steps s) /\
          exists c' d, steps T (Z.to_nat (zev sg (s_steps s))) c0 = Some c' /\
            Rp (den (et sg (s_tape s)) (s_state s)) c' /\ s_seen s = Some d /\
            zseen_ok T c0 (zev sg (s_steps s)) (ed sg d).
  Proof.
    intros W R E V. destruct (gen_nums_ok (nums t) (wf_pos t W) next) as
      (nx' & vs & m' & E' & Hnx & Hk & Hr & Hd & Hi & Hm).
    rewrite E in E'. injection E' as <- <- <-.
    pose proof (Forall2_length' _ _ _ Hi) as Hl. rewrite nums_len in Hl. symmetry in Hl.
    assert (F0 : tform i0 (av m0) (mk (shape t) inits)).
    { apply (mk_form i0 (av m0) (fun n o => pos n /\ irel m0 n o)); auto.
      - intros v [_ H]. exact H.
      - intros z o [H1 H2]. pose proof (irel_av m0 _ _ H1 H2) as H3. simpl in H2.
        destruct (z =? 1); [subst o; eauto|]. destruct H2 as (x & k & -> & _). eauto.
      - apply Forall2_left; auto. now apply wf_pos. }
    assert (PV : Permutation (tvars (mk (shape t) inits)) V).
    { eapply perm_trans; [apply tvars_nums|]. rewrite nums_mk by exact Hl. apply Permutation_refl. }
    assert (ND : NoDup V) by (unfold V; rewrite <- Hk; exact Hd).
    assert (J0 : gj T M Rp V (mk (shape t) inits) q 0 m0 (gen_sim0 t q inits)).
    { split.
      - constructor; simpl s_tape; auto.
        + eapply Permutation_NoDup; [apply Permutation_sym; exact PV|exact ND].
        + intros x Hx. eapply Permutation_in; eauto.
        + unfold V. rewrite <- Hk. exact Hm.
        + split; [constructor|]. exists 0. reflexivity.
        + intros x [].
        + exists []. split; [reflexivity|]. split; [constructor|]. split; constructor.
      - intros sg c0 Hv R0. change (zev sg (s_steps (gen_sim0 t q inits))) with 0.
        split; [|lia]. split; [change (zev sg (s_steps (gen_sim0 t q inits))) with 0; lia|].
        change (zev sg (s_steps (gen_sim0 t q inits))) with 0. split.
        + exists c0. split; [reflexivity|exact R0].
        + exists []. split; [reflexivity|]. apply zseen_nil. }
    assert (Start : forall sg, valid sg m0 -> exists c0, Rp (den (et sg (mk (shape t) inits)) q) c0).
    { intros sg Hv. eapply (pump_tape t); eauto.
      - eapply form_wf; eauto.
      - rewrite shape_et, shape_mk; auto. }
    destruct (gen_loop_ok Gd T M Rp halted MS SW V _ q m0 Start delta 0 m0 _ (mle_refl m0) J0) as [L1 L2].
    split; [exact Hi|]. split; [exact ND|]. split; [exact L1|]. intros s m Es.
    destruct (L2 s m Es) as [Lm [GI GS]]. split; [exact Lm|]. split; [exact GI|].
    intros sg Hov. destruct (on_valid_ex V m sg Hov) as (sg' & Hv & Ha).
    assert (Et : et sg (s_tape s) = et sg' (s_tape s)).
    { rewrite !et_self. f_equal. eapply ez_ext with (V := V).
      - intros x Hx. apply (gi_vars _ _ _ _ GI). eapply Permutation_in; [|exact Hx].
        apply Permutation_sym, tvars_nums.
      - intros x Hx. symmetry. auto. }
    assert (Es' : zev sg (s_steps s) = zev sg' (s_steps s)).
    { apply zev_ext. intros x Hx. symmetry. apply Ha, (gi_svars _ _ _ _ GI), Hx. }
    rewrite Et, Es'. split; [eapply form_wf; eauto using gi_form|].
    intros c0 R0.
    rewrite (ez_ext sg sg' inits V) in R0; [|apply incl_refl|intros x Hx; symmetry; auto].
    rewrite <- et_mk in R0. destruct (GS sg' c0 Hv R0) as [(S1 & (c' & S2 & S3) & d & S4 & S5) S6].
    split; [lia|]. exists c', d. split; [exact S2|]. split; [exact S3|]. split; [exact S4|].
    destruct (gi_seen _ _ _ _ GI) as (d' & D1 & _ & _ & D4). rewrite S4 in D1. injection D1 as <-.
    rewrite (ed_ext sg sg' d V); auto. intros x Hx. symmetry. auto.
  Qed.
End Rule.
