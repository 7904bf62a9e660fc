(** * The generalised simulator: one symbolic run describes a run for every value *)
Require Import ZArith List Lia Bool Arith QArith Qround Permutation.
From Verif Require Import Spec_TM M_Turing_Machine P_Stream P_SimLimited P_Macro P_Pump
     M_Expr P_Expr M_Tape M_Simulator P_Tape P_Simulator M_Prover P_Lin.
Import ListNotations.
Open Scope Z_scope.

(** ** evaluating a symbolic tape *)
Definition eb {Sym} (sg : nat -> Z) (b : blk val Sym) : blk Z Sym :=
  Blk (k_sym b) (option_map (zev sg) (k_num b)).
Definition et {Sym} (sg : nat -> Z) (t : ctape val Sym) : ctape Z Sym :=
  CTape (ct_dir t) (map (eb sg) (ct_l t)) (map (eb sg) (ct_r t)).

Definition nlin (o : option val) : Prop := match o with Some v => lv v | None => True end.
Definition hlin {Sym} (h : list (blk val Sym)) : Prop := Forall (fun b => nlin (k_num b)) h.
Definition tlin {Sym} (t : ctape val Sym) : Prop := hlin (ct_l t) /\ hlin (ct_r t).

Lemma vops_eq0 v : n_eq0 vops v = true -> forall sg, zev sg v = 0.
Proof.
  intros H sg. apply zev_eq. destruct v as [q|e]; simpl in *.
  - now apply qz_true.
  - now apply (e_eqb_sound e (VS 0)).
Qed.

(** a value that is an integer under [sg] *)
Definition iat (sg : nat -> Z) (v : val) : Prop := exists z, (evv (rho sg) v == inject_Z z)%Q.
Lemma lv_iat sg v : lv v -> iat sg v.
Proof. apply lv_int. Qed.
Lemma iat_spec sg v : iat sg v -> (evv (rho sg) v == inject_Z (zev sg v))%Q.
Proof. intros [z Hz]. now rewrite (zev_eq _ _ _ Hz). Qed.
Lemma iat_add sg a b : iat sg a -> iat sg b -> iat sg (v_add a b).
Proof. intros [x Hx] [y Hy]. exists (x + y). now rewrite v_add_ev, Hx, Hy, injZ_add. Qed.
Lemma iat_mul sg a b : iat sg a -> iat sg b -> iat sg (v_mul a b).
Proof. intros [x Hx] [y Hy]. exists (x * y). now rewrite v_mul_ev, Hx, Hy, injZ_mul. Qed.
Lemma iat_sub sg a b : iat sg a -> iat sg b -> iat sg (v_sub a b).
Proof.
  intros [x Hx] [y Hy]. exists (x - y). rewrite v_sub_ev, Hx, Hy. unfold Qminus. now rewrite injZ_opp, injZ_add.
Qed.
Lemma iat_VS sg z : iat sg (VS (inject_Z z)).
Proof. exists z. reflexivity. Qed.
Lemma zev_addi sg a b : iat sg a -> iat sg b -> zev sg (v_add a b) = zev sg a + zev sg b.
Proof. intros Ha Hb. apply zev_eq. now rewrite v_add_ev, (iat_spec _ _ Ha), (iat_spec _ _ Hb), injZ_add. Qed.
Lemma zev_muli sg a b : iat sg a -> iat sg b -> zev sg (v_mul a b) = zev sg a * zev sg b.
Proof. intros Ha Hb. apply zev_eq. now rewrite v_mul_ev, (iat_spec _ _ Ha), (iat_spec _ _ Hb), injZ_mul. Qed.
Lemma zev_subi sg a b : iat sg a -> iat sg b -> zev sg (v_sub a b) = zev sg a - zev sg b.
Proof.
  intros Ha Hb. apply zev_eq. rewrite v_sub_ev, (iat_spec _ _ Ha), (iat_spec _ _ Hb).
  unfold Qminus. now rewrite injZ_opp, injZ_add.
Qed.

Section Tape.
  Context {Sym : Type} (eqb : Sym -> Sym -> bool) (init : Sym).
  Hypothesis eqb_eq : forall a b, eqb a b = true <-> a = b.
  Variable sg : nat -> Z.

  Inductive hwf0 : list (blk Z Sym) -> Prop :=
  | hwf0_end : hwf0 [Blk init None]
  | hwf0_blk s z h : 0 <= z -> hwf0 h -> hwf0 (Blk s (Some z) :: h).

  Lemma hwf_0 h : hwf init h -> hwf0 h.
  Proof. induction 1; constructor; auto; lia. Qed.

  Definition twf0 (t : ctape Z Sym) : Prop := hwf0 (ct_l t) /\ hwf0 (ct_r t).
  Lemma twf_0 t : twf init t -> twf0 t.
  Proof. intros [A B]. split; now apply hwf_0. Qed.
  (** the block next to the head is not empty *)
  Definition head_pos (h : list (blk Z Sym)) : Prop :=
    match h with Blk _ (Some z) :: _ => 0 < z | _ => True end.
  Lemma hwf_head h : hwf init h -> head_pos h.
  Proof. destruct 1; simpl; auto. Qed.
  Lemma half_0 (t : ctape Z Sym) d : twf0 t -> hwf0 (half d t).
  Proof. intros [A B]. destruct d; auto. Qed.

  Lemma top_ok0 {St} (t : ctape Z Sym) (q : St) : twf0 t -> head_pos (half (ct_dir t) t) ->
    exists top, ct_top t = Some top /\ k_sym top = facing (tden init t q).
  Proof.
    intros W P. unfold ct_top. pose proof (half_0 t (ct_dir t) W) as H.
    assert (F : facing (tden init t q) = hden init (half (ct_dir t) t) 0%nat)
      by (unfold facing, tden, half; simpl; destruct (ct_dir t); reflexivity).
    rewrite F. destruct (half (ct_dir t) t) as [|[s [z|]] h] eqn:E; [inversion H| |].
    - eexists. split; [reflexivity|]. simpl in P. simpl. destruct (Z.to_nat z) eqn:Ez; [lia|]. reflexivity.
    - eexists. split; [reflexivity|]. inversion H; subst. reflexivity.
  Qed.

  Lemma vpop h : hlin h -> hwf0 (map (eb sg) h) -> head_pos (map (eb sg) h) ->
    exists h', pop_one vops h = Some h' /\ hlin h' /\ hwf0 (map (eb sg) h') /\
               seqv (hden init (map (eb sg) h')) (stl (hden init (map (eb sg) h))).
  Proof.
    intros Hl Hw Hp. destruct h as [|[s n] h]; [inversion Hw|]. simpl pop_one.
    eexists. split; [reflexivity|]. inversion Hl as [|? ? Hb Hh]; subst. cbn [map eb k_sym k_num option_map] in Hw, Hb, Hp.
    destruct n as [v|]; cbn [option_map] in Hw, Hp.
    - inversion Hw as [|? ? ? Hz0 Hw']; subst. unfold eb in Hp. cbn in Hp.
      assert (Ez : zev sg (v_add v (VS (inject_Z (-1)))) = zev sg v - 1).
      { rewrite zev_add by auto using VS_lin. rewrite zev_VS. lia. }
      destruct (n_eq0 vops (v_add v (VS (inject_Z (-1))))) eqn:E0.
      + cbn [n_add vops n_of]. simpl in E0. rewrite E0.
        pose proof (vops_eq0 _ E0 sg) as E1. rewrite Ez in E1.
        split; [exact Hh|]. split; [exact Hw'|]. simpl.
        replace (zev sg v) with 1 by lia. intros i. unfold stl.
        change (Z.to_nat 1) with 1%nat. rewrite sapp_repeat_S. simpl. now rewrite sapp_nil.
      + cbn [n_add vops n_of]. simpl in E0. rewrite E0.
        split; [constructor; auto; simpl; apply v_add_lin; auto using VS_lin|].
        simpl map. unfold eb at 1; simpl. rewrite Ez. split; [constructor; [lia|exact Hw']|].
        intros i. unfold stl. simpl. 
        replace (Z.to_nat (zev sg v)) with (S (Z.to_nat (zev sg v - 1))) by lia.
        rewrite sapp_repeat_S. reflexivity.
    - split; [exact Hl|]. split; [exact Hw|]. intros i. unfold eb in Hw. cbn in Hw. inversion Hw; subst.
      destruct h; [|discriminate]. reflexivity.
  Qed.

  Lemma vpush h a n : hlin h -> lv n -> 0 <= zev sg n -> hwf0 (map (eb sg) h) ->
    exists h', push_num vops eqb h a n = Some h' /\ hlin h' /\
      hwf0 (map (eb sg) h') /\
      seqv (hden init (map (eb sg) h')) (sapp (repeat a (Z.to_nat (zev sg n))) (hden init (map (eb sg) h))).
  Proof.
    intros Hl Hn Hp Hw. destruct h as [|[s m] h]; [inversion Hw|]. simpl push_num.
    eexists. split; [reflexivity|]. inversion Hl as [|? ? Hb Hh]; subst. cbn [map eb k_sym k_num option_map] in Hw, Hb.
    destruct (eqb s a) eqn:E.
    - apply eqb_eq in E. subst s. destruct m as [v|]; cbn [option_map] in Hw.
      + inversion Hw as [|? ? ? Hz Hw']; subst.
        split; [constructor; auto; simpl; apply v_add_lin; auto|].
        cbn [map eb k_sym k_num option_map hden]. rewrite zev_add by auto.
        split; [constructor; [rewrite ?zev_add by auto; lia|auto]|].
        replace (Z.to_nat (zev sg v + zev sg n)) with (Z.to_nat (zev sg n) + Z.to_nat (zev sg v))%nat by lia.
        rewrite repeat_app. apply sapp_app.
      + unfold eb in *; simpl in *. inversion Hw; subst.
        destruct h; [|discriminate]. split; [exact Hl|]. split; [constructor|]. apply seqv_sym, sapp_repeat.
    - split; [constructor; auto|]. cbn [map eb k_sym k_num option_map hden]. split; [constructor; auto|]. auto.

  Qed.

  Lemma tlin_half (t : ctape val Sym) d : tlin t -> hlin (half d t).
  Proof. intros [? ?]. destruct d; auto. Qed.
  Lemma et_half (t : ctape val Sym) d : half d (et sg t) = map (eb sg) (half d t).
  Proof. destruct d; reflexivity. Qed.

  Lemma gsingle {St} t a d (s s' : St) : tlin t -> twf0 (et sg t) -> head_pos (half (ct_dir t) (et sg t)) ->
    exists t', apply_single_move vops eqb t a d = Some t' /\ tlin t' /\ twf0 (et sg t') /\ ct_dir t' = d /\
      deq (tden init (et sg t') s') (apply_t (tden init (et sg t) s) a s' d).
  Proof.
    intros Hl W HP. unfold apply_single_move.
    destruct (vpop (half (ct_dir t) t)) as (h & -> & Lh & Wh & Dh).
    { now apply tlin_half. }
    { rewrite <- et_half. now apply half_0. }
    { rewrite <- et_half. exact HP. }
    set (t1 := set_half (ct_dir t) h t).
    assert (L1 : tlin t1) by (destruct Hl; unfold t1, set_half; destruct (ct_dir t); split; simpl; auto).
    assert (W1 : hwf0 (map (eb sg) (half (opp d) t1))).
    { destruct W as [Wl Wr]. simpl in Wl, Wr.
      unfold t1, set_half, half. destruct (ct_dir t), d; simpl; auto. }
    assert (W1' : twf0 (et sg t1)).
    { destruct W as [Wl Wr]. simpl in Wl, Wr. unfold t1, set_half, half. destruct (ct_dir t); split; simpl; auto. }
    destruct (vpush (half (opp d) t1) a (VS (inject_Z 1))) as (h2 & E2 & L2 & W2 & D2).
    { now apply tlin_half. }
    { apply VS_lin. }
    { rewrite zev_VS. lia. }
    { exact W1. }
    change (n_of vops 1) with (VS (inject_Z 1)). rewrite E2. eexists. split; [reflexivity|].
    rewrite zev_VS in D2. change (Z.to_nat 1) with 1%nat in D2. simpl repeat in D2.
    assert (D3 : seqv (hden init (map (eb sg) h2)) (scons a (hden init (map (eb sg) (half (opp d) t1))))).
    { eapply seqv_trans; [exact D2|]. eapply seqv_trans; [apply sapp_cons|].
      apply scons_ext, sapp_nil. }
    assert (D1l : seqv (hden init (map (eb sg) (ct_l t1)))
              (match ct_dir t with L => stl (hden init (map (eb sg) (ct_l t)))
                                 | R => hden init (map (eb sg) (ct_l t)) end))
      by (unfold t1, half, set_half in *; destruct (ct_dir t); simpl; auto).
    assert (D1r : seqv (hden init (map (eb sg) (ct_r t1)))
              (match ct_dir t with R => stl (hden init (map (eb sg) (ct_r t)))
                                 | L => hden init (map (eb sg) (ct_r t)) end))
      by (unfold t1, half, set_half in *; destruct (ct_dir t); simpl; auto).
    destruct L1 as [L1l L1r].
    split; [|split; [|split; [reflexivity|]]].
    - destruct d; split; simpl; auto.
    - destruct W1' as [W1l W1r]. simpl in W1l, W1r. destruct d; split; simpl; auto.
    - unfold tden, apply_t; simpl. destruct d; simpl in *.
      + split; [exact D1l|]. split; [|split; reflexivity].
        eapply seqv_trans; [exact D3|]. apply scons_ext. exact D1r.
      + split; [|split; [exact D1r|split; reflexivity]].
        eapply seqv_trans; [exact D3|]. apply scons_ext. exact D1l.
  Qed.

  Lemma gchain {St} t a (s : St) b v rest : tlin t -> twf0 (et sg t) -> head_pos (half (ct_dir t) (et sg t)) ->
    half (ct_dir t) t = Blk b (Some v) :: rest ->
    exists t', apply_chain_move vops eqb t a = Some (t', Some v) /\ tlin t' /\ lv v /\ 0 < zev sg v /\
      twf0 (et sg t') /\ ct_dir t' = ct_dir t /\
      deq (tden init (et sg t') s) (chain_t (Z.to_nat (zev sg v)) a (tden init (et sg t) s)).
  Proof.
    intros Hl W HP E. unfold apply_chain_move. rewrite E. simpl k_num. cbv iota beta.
    pose proof (half_0 (et sg t) (ct_dir t) W) as Hh. rewrite et_half, E in Hh, HP. cbn [map eb k_sym k_num option_map] in Hh, HP.
    unfold eb in HP. cbn in HP. rename HP into Hz.
    inversion Hh as [|? ? ? Hz0 Hr]; subst. clear Hh.
    pose proof (tlin_half t (ct_dir t) Hl) as Hlh. rewrite E in Hlh.
    inversion Hlh as [|? ? Lv Lr]; subst. simpl in Lv.
    set (t1 := set_half (ct_dir t) rest t).
    assert (Ed : ct_dir t1 = ct_dir t) by (unfold t1, set_half; destruct (ct_dir t); reflexivity).
    assert (L1 : tlin t1) by (destruct Hl; unfold t1, set_half; destruct (ct_dir t); split; simpl; auto).
    assert (W1 : hwf0 (map (eb sg) (half (opp (ct_dir t)) t1))).
    { destruct W as [Wl Wr]. simpl in Wl, Wr.
      unfold t1, set_half, half. destruct (ct_dir t); simpl; auto. }
    assert (W1' : twf0 (et sg t1)).
    { destruct W as [Wl Wr]. simpl in Wl, Wr. unfold t1, set_half, half. destruct (ct_dir t); split; simpl; auto. }
    destruct (vpush (half (opp (ct_dir t)) t1) a v) as (h2 & E2 & L2 & W2 & D2); auto; try lia.
    { now apply tlin_half. }
    cbn zeta. rewrite Ed, E2. eexists. split; [reflexivity|].
    destruct Hl as [Hll Hlr]. destruct L1 as [L1l L1r].
    unfold t1, half, set_half, tden, et in *.
    destruct t as [d l r]; simpl in *. destruct d; simpl in *; subst.
    - split; [split; auto|]. split; [exact Lv|]. split; [lia|].
      split; [destruct W1'; split; simpl; auto|]. split; [reflexivity|]. apply deq_sym.
      unfold eb at 1; simpl.
      eapply deq_trans; [apply chain_t_L|]. split; [auto|].
      split; [apply seqv_sym; exact D2|split; reflexivity].
    - split; [split; auto|]. split; [exact Lv|]. split; [lia|].
      split; [destruct W1'; split; simpl; auto|]. split; [reflexivity|]. apply deq_sym.
      unfold eb at 2; simpl.
      eapply deq_trans; [apply chain_t_R|]. split; [apply seqv_sym; exact D2|].
      split; [auto|split; reflexivity].
  Qed.
End Tape.

(** ** one move of the generalised simulator *)
Definition ed (sg : nat -> Z) (d : ndict val) : ndict Z := map (fun kv => (fst kv, zev sg (snd kv))) d.
Definition dlin (d : ndict val) : Prop := Forall (fun kv => lv (snd kv)) d.

Lemma ed_set sg k v d : ed sg (nd_set k v d) = nd_set k (zev sg v) (ed sg d).
Proof.
  induction d as [|[a b] d IH]; simpl; auto. destruct (Nat.eqb k a); simpl; congruence.
Qed.
Definition dlin_at (sg : nat -> Z) (d : ndict val) : Prop := Forall (fun kv => iat sg (snd kv)) d.
Lemma ed_fold sg base (new : dict) : iat sg base -> forall d,
  ed sg (fold_left (fun d kv => nd_set (fst kv) (v_add base (VS (inject_Z (Z.of_nat (snd kv))))) d) new d) =
  fold_left (fun d kv => nd_set (fst kv) ((fun j => zev sg base + Z.of_nat j) (snd kv)) d) new (ed sg d).
Proof.
  intros Hb. induction new as [|[k j] new IH]; simpl; intros d; auto.
  rewrite IH, ed_set. cbn [snd fst]. rewrite zev_addi by auto using iat_VS. now rewrite zev_VS.
Qed.
Lemma nd_set_keys {N} k (v : N) d x : In x (map fst (nd_set k v d)) <-> x = k \/ In x (map fst d).
Proof.
  induction d as [|[a b] d IH]; simpl.
  - intuition.
  - destruct (Nat.eqb k a) eqn:E; simpl.
    + apply Nat.eqb_eq in E. subst. intuition.
    + rewrite IH. intuition.
Qed.
Lemma nd_set_nodup {N} k (v : N) d : NoDup (map fst d) -> NoDup (map fst (nd_set k v d)).
Proof.
  induction d as [|[a b] d IH]; simpl; intros H.
  - repeat constructor. simpl. tauto.
  - inversion H; subst. destruct (Nat.eqb k a) eqn:E; simpl.
    + exact H.
    + constructor; auto. rewrite nd_set_keys. apply Nat.eqb_neq in E. intuition.
Qed.
Lemma nd_set_forall {N} (P : nat * N -> Prop) k v d :
  P (k, v) -> (forall a b, P (a, b) -> a = k -> P (a, v)) -> Forall P d -> Forall P (nd_set k v d).
Proof.
  intros Hp Hs. induction 1 as [|[a b] d Ha Hd IH]; simpl; auto.
  destruct (Nat.eqb k a) eqn:E; constructor; auto.
  apply Nat.eqb_eq in E. subst. eauto.
Qed.

Section GenSim.
  Context {Sym St : Type}.
  Variables (Gd : Prop) (T : table) (M : machine Sym St) (Rp : dcfg Sym St -> config -> Prop)
            (halted : St -> Prop).
  Hypothesis MS : msound Gd T M Rp halted.
  Hypothesis SW : seen_wf M Rp.
  Notation i0 := (m_init_sym M).
  Notation wf := (twf i0).
  Notation den := (tden i0).

  (** what the symbolic state says for the values [sg], started from [c0] *)
  Definition gsnap (sg : nat -> Z) (c0 : config) (s : sim val Sym St) : Prop :=
    0 <= zev sg (s_steps s) /\
    (exists c, steps T (Z.to_nat (zev sg (s_steps s))) c0 = Some c /\
               Rp (den (et sg (s_tape s)) (s_state s)) c) /\
    exists d, s_seen s = Some d /\ zseen_ok T c0 (zev sg (s_steps s)) (ed sg d).

  Definition glin (s : sim val Sym St) : Prop :=
    tlin (s_tape s) /\ ct_dir (s_tape s) = s_dir s /\ lv (s_steps s) /\
    exists d, s_seen s = Some d /\ dlin d /\ NoDup (map fst d).

  (** the steps may be any value that is an integer, and blocks other than the one next to
      the head may be empty *)
  Lemma gmove0 sg c0 s : tlin (s_tape s) -> ct_dir (s_tape s) = s_dir s -> iat sg (s_steps s) ->
    twf0 i0 (et sg (s_tape s)) -> head_pos (half (ct_dir (s_tape s)) (et sg (s_tape s))) -> gsnap sg c0 s ->
    exists s', sim_move vops M s = Some s' /\
      (s_op s' = RUNNING -> gsnap sg c0 s' /\ zev sg (s_steps s) < zev sg (s_steps s') /\
                            twf0 i0 (et sg (s_tape s'))).
  Proof.
    intros Hl Hdir Hls W HP (Hn & (c & Ec & HR) & d0 & Ed0 & Hseen). unfold sim_move.
    destruct (top_ok0 i0 (et sg (s_tape s)) (s_state s) W HP) as (top & Et & Ef).
    assert (exists top', ct_top (s_tape s) = Some top' /\ k_sym top' = facing (den (et sg (s_tape s)) (s_state s)))
      as (top' & Et' & Ef').
    { unfold ct_top in *. rewrite et_half in Et. simpl ct_dir in Et.
      destruct (half (ct_dir (s_tape s)) (s_tape s)) as [|b h]; [discriminate|].
      exists b. split; auto. simpl in Et. injection Et as <-. exact Ef. }
    rewrite Et', Ef'.
    pose proof (ms_total _ _ _ _ _ MS _ _ HR) as Htot.
    assert (Es : d_st (den (et sg (s_tape s)) (s_state s)) = s_state s) by reflexivity.
    assert (Ed : d_dir (den (et sg (s_tape s)) (s_state s)) = s_dir s) by exact Hdir.
    rewrite Es, Ed in Htot.
    destruct (m_trans M (facing (den (et sg (s_tape s)) (s_state s))) (s_state s) (s_dir s)) as [t|] eqn:Em;
      [|congruence].
    pose proof (ms_step _ _ _ _ _ MS _ c t HR) as Hstep. rewrite Es, Ed in Hstep. specialize (Hstep Em).
    pose proof (SW _ _ t HR) as SW1. rewrite Es, Ed in SW1. specialize (SW1 Em).
    unfold outcome in Hstep.
    destruct (cond_eqb (t_cond t) INF_REPEAT) eqn:Einf.
    { eexists. split; [reflexivity|]. simpl. discriminate. }
    destruct (m_st_eqb M (t_state t) (s_state s) && dir_eqb (t_dir t) (s_dir s)
              && cond_eqb (t_cond t) RUNNING) eqn:Ech.
    { apply andb_true_iff in Ech. destruct Ech as [Ech Ec3].
      apply andb_true_iff in Ech. destruct Ech as [Ec1 Ec2].
      apply (ms_st_eq _ _ _ _ _ MS) in Ec1. apply dir_eqb_eq in Ec2.
      assert (Er : t_cond t = RUNNING) by (destruct (t_cond t); try discriminate; auto).
      rewrite Er in Hstep.
      unfold ct_top in Et'.
      destruct (half (ct_dir (s_tape s)) (s_tape s)) as [|b rest] eqn:Ehalf; [discriminate|].
      injection Et' as ->. destruct top' as [bs [v|]].
      - destruct (gchain (m_sym_eqb M) i0 (ms_sym_eq _ _ _ _ _ MS) sg (s_tape s) (t_sym t)
                    (s_state s) bs v rest Hl W HP Ehalf) as (t' & -> & L' & Lv & Hz & W' & Ed' & Hden).
        eexists. split; [reflexivity|]. intros _.
        destruct Hstep as (_ & Hp & _). simpl in Ef'.
        destruct (chain_steps Gd T M Rp halted MS t bs (s_state s) (s_dir s) Er Ec1 Ec2
                    ltac:(rewrite Ef'; exact Em) (Z.to_nat (zev sg v)) _ c HR Es Ed)
          as (c2 & E2 & R2 & L2 & N2).
        { intros i Hi.
          assert (G : hden i0 (half (ct_dir (s_tape s)) (et sg (s_tape s))) i = bs).
          { rewrite et_half, Ehalf. simpl. unfold sapp.
            destruct (nth_error (repeat bs (Z.to_nat (zev sg v))) i) eqn:E.
            - apply nth_error_In, repeat_spec in E. exact E.
            - apply nth_error_None in E. rewrite repeat_length in E. lia. }
          unfold half in G. rewrite Hdir in G. simpl in *. destruct (s_dir s); exact G. }
        set (z := zev sg v) in *.
        assert (En' : zev sg (v_add (s_steps s) (v_mul (VS (inject_Z (Z.of_nat (t_steps t)))) v)) =
                      zev sg (s_steps s) + Z.of_nat (t_steps t) * z).
        { rewrite zev_addi by auto using lv_iat, v_mul_lin. now rewrite zev_mul. }
        assert (En : Z.to_nat (zev sg (s_steps s) + Z.of_nat (t_steps t) * z) =
                     (Z.to_nat (zev sg (s_steps s)) + t_steps t * Z.to_nat z)%nat).
        { rewrite Z2Nat.inj_add by nia. rewrite Z2Nat.inj_mul by lia. lia. }
        unfold gsnap. cbn [s_steps s_tape s_state s_seen n_add n_mul n_of vops]. rewrite En'.
        split; [|split; [nia|exact W']]. split; [nia|]. split.
        + exists c2. rewrite En. split; [eapply steps_compose; eauto|].
          eapply (ms_ext _ _ _ _ _ MS); [|exact R2]. apply deq_sym. exact Hden.
        + unfold seen_update. rewrite Ed0. eexists. split; [reflexivity|].
          destruct (L2 ltac:(lia)) as (c1 & E1 & S1).
          set (vb := v_add (s_steps s) (v_mul (VS (inject_Z (Z.of_nat (t_steps t))))
                             (v_add v (VS (inject_Z (-1)))))).
          assert (Lb : iat sg vb).
          { unfold vb. apply iat_add; auto. apply lv_iat, v_mul_lin, v_add_lin; auto. apply VS_lin. }
          set (base := zev sg (s_steps s) + Z.of_nat (t_steps t) * (z + -1)).
          assert (Evb : zev sg vb = base).
          { unfold vb, base. rewrite zev_addi by (auto using lv_iat, v_mul_lin, v_add_lin, VS_lin).
            rewrite zev_mul by (auto using v_add_lin, VS_lin).
            rewrite zev_add by auto using VS_lin. now rewrite zev_VS. }
          cbn [n_add n_mul n_of vops]. fold vb. rewrite ed_fold by exact Lb. rewrite Evb.
          assert (Eb : Z.to_nat base = (Z.to_nat (zev sg (s_steps s)) + t_steps t * (Z.to_nat z - 1))%nat).
          { unfold base. rewrite Z2Nat.inj_add by nia. rewrite Z2Nat.inj_mul by lia. lia. }
          intros q. rewrite (nd_fold_get (fun j => base + Z.of_nat j)) by exact SW1.
          destruct (nd_get q (t_seen t)) as [j|] eqn:Eq.
          * split; [unfold base; nia|]. simpl.
            pose proof (seen_ok_lastv _ _ _ _ S1 q) as S1q. rewrite dict_nd_get, Eq in S1q.
            assert (E3 : steps T (Z.to_nat base) c0 = Some c1)
              by (rewrite Eb; eapply steps_compose; eauto).
            replace (Z.to_nat (base + Z.of_nat j)) with (Z.to_nat base + j)%nat by (unfold base; nia).
            destruct S1q as (Sj & (e & Ee & Sq) & Sr). split; [nia|]. split.
            -- exists e. split; auto. eapply steps_compose; eauto.
            -- intros i e' Hi He'. apply (Sr (i - Z.to_nat base)%nat e').
               ++ rewrite En in Hi. rewrite Eb in *. nia.
               ++ replace i with (Z.to_nat base + (i - Z.to_nat base))%nat in He' by lia.
                  now rewrite steps_add, E3 in He'.
          * destruct (Hseen q) as [S2 S3]. split; [exact S2|]. rewrite En.
            apply (lastv_app T c0 _ c _ q _ None Ec S3). exact (N2 q Eq).
      - assert (E1 : apply_chain_move vops (m_sym_eqb M) (s_tape s) (t_sym t) = Some (s_tape s, None)).
        { unfold apply_chain_move. now rewrite Ehalf. }
        rewrite E1. eexists. split; [reflexivity|]. simpl. discriminate. }
    destruct (gsingle (m_sym_eqb M) i0 (ms_sym_eq _ _ _ _ _ MS) sg (s_tape s) (t_sym t) (t_dir t)
                (s_state s) (t_state t) Hl W HP) as (t' & Et2 & L' & W' & Ed' & Hden).
    destruct (negb (cond_eqb (t_cond t) GAVE_UP)) eqn:Eg.
    2:{ eexists. split; [reflexivity|]. simpl. intros E. rewrite E in Eg. discriminate. }
    rewrite Et2. eexists. split; [reflexivity|]. cbn [s_op]. intros Er. rewrite Er in Hstep.
    destruct Hstep as (_ & Hp & Sk & c' & Ec' & R').
    assert (En' : zev sg (v_add (s_steps s) (VS (inject_Z (Z.of_nat (t_steps t))))) =
                  zev sg (s_steps s) + Z.of_nat (t_steps t)).
    { rewrite zev_addi by auto using iat_VS. now rewrite zev_VS. }
    unfold gsnap. cbn [s_steps s_tape s_state s_seen n_add n_mul n_of vops]. rewrite En'.
    assert (En : Z.to_nat (zev sg (s_steps s) + Z.of_nat (t_steps t)) =
                 (Z.to_nat (zev sg (s_steps s)) + t_steps t)%nat) by lia.
    split; [|split; [lia|exact W']]. split; [lia|]. split.
    - exists c'. rewrite En. split; [eapply steps_compose; eauto|].
      eapply (ms_ext _ _ _ _ _ MS); [|exact R']. apply deq_sym. exact Hden.
    - unfold seen_update. rewrite Ed0. eexists. split; [reflexivity|].
      cbn [n_add n_mul n_of vops]. rewrite ed_fold by exact Hls.
      apply (zseen_merge T c0 (zev sg (s_steps s)) c (t_steps t) (ed sg d0)
               (fun j => zev sg (s_steps s) + Z.of_nat j) (fun j => j) (t_seen t)); auto.
      intros q. specialize (Sk q). rewrite dict_nd_get in Sk.
      destruct (nd_get q (t_seen t)); exact Sk.
  Qed.

  Lemma gmove sg c0 s : glin s -> wf (et sg (s_tape s)) -> gsnap sg c0 s ->
    exists s', sim_move vops M s = Some s' /\
      (s_op s' = RUNNING -> gsnap sg c0 s' /\ zev sg (s_steps s) < zev sg (s_steps s')).
  Proof.
    intros (Hl & Hdir & Hls & _) W G.
    destruct (gmove0 sg c0 s Hl Hdir (lv_iat _ _ Hls) (twf_0 _ _ W)) as (s' & E & H); [|exact G|].
    { apply (hwf_head i0). destruct W. destruct (ct_dir (s_tape s)); auto. }
    exists s'. split; [exact E|]. intros Er. destruct (H Er) as (A & B & _). auto.
  Qed.
End GenSim.
