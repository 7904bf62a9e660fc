(** * Applying rules to tapes whose counts are expressions *)
Require Import ZArith List Lia Bool Arith QArith Qround.
From Verif Require Import Spec_TM M_Turing_Machine P_Stream P_SimLimited P_Macro P_Pump
     M_Expr P_Expr M_Tape M_Simulator P_Tape P_Simulator M_Prover M_ProverRec P_Lin P_GenSim P_Form P_GenLoop P_Nums P_Rule
     P_MakeRule P_Apply P_Series P_RecVal P_RecSim.
Import ListNotations.
Open Scope Z_scope.

(** how the counts of a symbolic tape fit the blocks of a difference rule *)
Definition vdalign (W : list nat) (i : option val) (n : option val) : Prop :=
  match i, n with
  | None, None => True
  | Some (VS p), Some v => p = inject_Z 1 /\ cv W v /\ forall sg, zev sg v = 1
  | Some (VE _), Some v => cv W v
  | _, _ => False
  end.

(** the dicts [init_value] and [delta_value] *)
Fixpoint vmk (bs : list (option val * option val * option val)) : list (nat * (val * Z)) :=
  match bs with
  | [] => []
  | (Some (VE e), Some d, Some n) :: bs =>
    match variable_restricted e, v_int d with
    | Some x, Some dz => (x, (v_sub n (VS (e_const e)), dz)) :: vmk bs
    | _, _ => vmk bs
    end
  | _ :: bs => vmk bs
  end.
Definition zv (sg : nat -> Z) (l : list (nat * (val * Z))) : list (nat * (Z * Z)) :=
  map (fun xv => (fst xv, (zev sg (fst (snd xv)), snd (snd xv)))) l.
Definition limz (sg : nat -> Z) (l : vlimit) : limit :=
  match l with Some (r, i, f) => Some (zev sg r, i, zev sg f) | None => None end.
Definition lcv (W : list nat) (l : vlimit) : Prop :=
  match l with
  | Some (r, _, f) => cv W r /\ cv W f
  | None => True
  end.

Lemma cv_zev W v sg : cv W v -> iat sg v.
Proof. intros [H _]. now apply lv_iat. Qed.
Lemma cv_dep W v sg sg' : cv W v -> (forall x, In x W -> sg x = sg' x) -> zev sg v = zev sg' v.
Proof. intros [H1 H2] H. apply zev_ext. intros x Hx. apply H. auto. Qed.

Lemma lv_VS_int q : lv (VS q) -> exists z, q = inject_Z z.
Proof. intros H. exact H. Qed.

Lemma max_reps_v_ok W c dec n r f sg : (dec = 1 \/ v_is_expr n = false) -> 1 <= dec -> cv W n ->
  max_reps_v (inject_Z c) dec n = Some (r, f) ->
  cv W r /\ cv W f /\ subtract_max_reps c dec (zev sg n) = (zev sg r, zev sg f) /\
  (v_is_expr n = false -> v_is_expr r = false).
Proof.
  intros Hd Hp Hn. unfold max_reps_v.
  replace (inject_Z c - inject_Z dec)%Q with (inject_Z (c - dec)).
  2:{ unfold Qminus. rewrite injZ_opp, injZ_add. reflexivity. }
  assert (Hs : cv W (v_sub n (VS (inject_Z (c - dec))))) by (apply cv_sub; auto using cv_VS).
  assert (Hz : zev sg (v_sub n (VS (inject_Z (c - dec)))) = zev sg n - (c - dec)).
  { rewrite zev_sub by (apply Hn || apply VS_lin). now rewrite zev_VS. }
  assert (Hx : v_is_expr n = v_is_expr (v_sub n (VS (inject_Z (c - dec))))) by (destruct n; reflexivity).
  destruct (v_sub n (VS (inject_Z (c - dec)))) as [q|e] eqn:E.
  - destruct Hs as [Hq _]. destruct (lv_VS_int q Hq) as [z ->]. rewrite !q_int_inj. intros E1. apply some_inj in E1.
    injection E1 as <- <-. split; [apply cv_VS|]. split; [apply cv_VS|]. split; [|auto]. rewrite zev_VS in Hz. subst z.
    unfold subtract_max_reps. now rewrite !zev_VS.
  - destruct Hd as [->|Hd]; [|rewrite Hd in Hx; discriminate].
    rewrite Z.eqb_refl. intros E1. apply some_inj in E1. injection E1 as <- <-.
    split; [exact Hs|]. split; [apply cv_VS|]. split; [|intros H; congruence].
    unfold subtract_max_reps. rewrite Hz, zev_VS, Z.div_1_r, Z.mod_1_r. f_equal; lia.
Qed.

Lemma scan_limit_ok W i c dz n lim lim' : dz < 0 -> cv W n -> lcv W lim ->
  scan_limit i (inject_Z c) dz n (v_sub n (VS (inject_Z c))) lim = POk lim' ->
  lcv W lim' /\ forall sg, limz sg lim' = P_Apply.upd i c dz (zev sg n) (limz sg lim).
Proof.
  intros Hd Hn Hl. unfold scan_limit, P_Apply.upd. assert (Hd1 : 1 <= - dz) by lia.
  assert (dz <? 0 = true) as -> by now apply Z.ltb_lt.
  assert (Hx : v_is_expr (v_sub n (VS (inject_Z c))) = v_is_expr n) by (destruct n; reflexivity).
  destruct lim as [[[b bi] bf]|].
  - destruct (v_sub n (VS (inject_Z c))) as [iq|ie] eqn:Ei; [|discriminate].
    destruct b as [b|]; [|discriminate]. cbn [v_is_expr] in Hx.
    destruct (max_reps_v (inject_Z c) (- dz) n) as [[[r|] f]|] eqn:Em; try discriminate.
    intros E. injection E as <-.
    pose proof (fun sg => max_reps_v_ok W c (- dz) n (VS r) f sg (or_intror (eq_sym Hx)) Hd1 Hn Em) as H.
    destruct (H (fun _ => 0)) as (H1 & H2 & _). destruct Hl as [L1 L2].
    destruct (lv_VS_int b (proj1 L1)) as [zb ->]. destruct (lv_VS_int r (proj1 H1)) as [zr ->].
    assert (Eq : qlt (inject_Z zr) (inject_Z zb) = (zr <? zb)).
    { unfold qlt. destruct (Z.ltb_spec zr zb) as [Hlt|Hle].
      - apply negb_true_iff. apply not_true_is_false. intros Hb. apply Qle_bool_iff in Hb; apply (proj1 (injZ_le _ _)) in Hb. lia.
      - apply negb_false_iff. apply Qle_bool_iff, injZ_le. exact Hle. }
    rewrite Eq. split; [destruct (zr <? zb); simpl; auto|].
    intros sg. destruct (H sg) as (_ & _ & E & _). cbn [limz]. rewrite E, !zev_VS.
    destruct (zr <? zb); cbn [limz]; now rewrite ?zev_VS.
  - destruct (v_is_expr (v_sub n (VS (inject_Z c))) && negb (dz =? -1)) eqn:Eg; [discriminate|].
    destruct (max_reps_v (inject_Z c) (- dz) n) as [[r f]|] eqn:Em; [|discriminate].
    intros E. injection E as <-.
    assert (Hor : - dz = 1 \/ v_is_expr n = false).
    { rewrite Hx in Eg. destruct (v_is_expr n); [|now right]. left. simpl in Eg. apply negb_false_iff, Z.eqb_eq in Eg. lia. }
    pose proof (fun sg => max_reps_v_ok W c (- dz) n r f sg Hor Hd1 Hn Em) as H.
    destruct (H (fun _ => 0)) as (H1 & H2 & _). split; [simpl; auto|].
    intros sg. destruct (H sg) as (_ & _ & E & _). cbn [limz]. now rewrite E.
Qed.

Lemma diff_scan_v_ok W inits diffs : Forall2 dblock inits diffs -> forall ns, Forall2 (vdalign W) inits ns ->
  forall i lim vals large lim' vals' large', lcv W lim ->
  diff_scan_v i (combine (combine inits diffs) ns) lim vals large = POk (lim', vals', large') ->
  vals' = vals ++ vmk (combine (combine inits diffs) ns) /\ lcv W lim' /\
  Forall (fun xv => cv W (fst (snd xv))) (vmk (combine (combine inits diffs) ns)) /\
  forall sg, NN sg ->
    Forall2 dalign inits (ez sg ns) /\
    zv sg (vmk (combine (combine inits diffs) ns)) = mkvals (combine (combine inits diffs) (ez sg ns)) /\
    (forall x a d, In (x, (a, d)) (mkvals (combine (combine inits diffs) (ez sg ns))) -> 0 <= a) /\
    lim_ok i (ez sg ns) diffs (mkvals (combine (combine inits diffs) (ez sg ns))) (limz sg lim) (limz sg lim').
Proof.
  induction 1 as [|o d inits diffs Hb Hf IH]; intros ns Hal i lim vals large lim' vals' large' Hl.
  - inversion Hal; subst. cbn [combine diff_scan_v vmk]. intros E. injection E as <- <- <-.
    rewrite app_nil_r. split; [reflexivity|]. split; [exact Hl|]. split; [constructor|].
    intros sg _. split; [constructor|]. split; [reflexivity|]. simpl. split; [tauto|].
    destruct lim as [[[r li] f]|]; simpl; [|split; [reflexivity|tauto]].
    split; [tauto|]. split; [lia|]. split; [lia|]. left. reflexivity.
  - inversion Hal as [|? n ? ns' Ha Hal']; subst. cbn [combine].
    destruct o as [[p|e]|].
    + cbn [diff_scan_v vmk]. intros E. destruct n as [v|]; [|destruct Ha]. destruct Ha as (-> & Hv & Hv1).
      destruct (IH ns' Hal' _ _ _ _ _ _ _ Hl E) as (E1 & H1 & H2 & H3).
      split; [exact E1|]. split; [exact H1|]. split; [exact H2|]. intros sg Hsg.
      destruct (H3 sg Hsg) as (A & B & C & D). cbn [ez map option_map]. fold (ez sg ns'). cbn [combine mkvals].
      split; [constructor; [simpl; now rewrite Hv1|exact A]|]. split; [exact B|]. split; [exact C|]. now apply lim_skip.
    + destruct d as [[r|]|]; simpl in Hb; try contradiction.
      destruct Hb as (x & c & dz & -> & Hc & ->).
      destruct n as [n|]; simpl in Ha; [|contradiction].
      cbn [diff_scan_v vmk]. change (variable_restricted (var_plus x (inject_Z c))) with (Some x).
      change (e_const (var_plus x (inject_Z c))) with (inject_Z c). cbn [v_int]. rewrite q_int_inj. cbv zeta.
      set (iv := v_sub n (VS (inject_Z c))).
      assert (Civ : cv W iv) by (apply cv_sub; auto using cv_VS).
      assert (Ziv : forall sg, zev sg iv = zev sg n - c).
      { intros sg. unfold iv. rewrite zev_sub by (apply Ha || apply VS_lin). now rewrite zev_VS. }
      destruct (negb (always_ge iv (VS 0%Q))) eqn:Eg; [discriminate|]. apply negb_false_iff in Eg.
      assert (Hge : forall sg, NN sg -> 0 <= zev sg n - c).
      { intros sg Hsg. rewrite <- Ziv. change (VS 0%Q) with (VS (inject_Z 0)) in Eg.
        apply (always_ge_zev _ _ sg Hsg) in Eg; [now rewrite zev_VS in Eg|now apply (cv_zev W)|apply lv_iat, VS_lin]. }
      assert (Fin : forall sg, NN sg -> forall lim1 large1,
        (forall sg, limz sg lim1 = P_Apply.upd i c dz (zev sg n) (limz sg lim)) -> lcv W lim1 ->
        diff_scan_v (S i) (combine (combine inits diffs) ns') lim1 (vals ++ [(x, (iv, dz))]) large1 = POk (lim', vals', large') ->
        vals' = vals ++ (x, (iv, dz)) :: vmk (combine (combine inits diffs) ns') /\ lcv W lim' /\
        Forall (fun xv => cv W (fst (snd xv))) ((x, (iv, dz)) :: vmk (combine (combine inits diffs) ns')) /\
        Forall2 dalign (Some (VE (var_plus x (inject_Z c))) :: inits) (ez sg (Some n :: ns')) /\
        zv sg ((x, (iv, dz)) :: vmk (combine (combine inits diffs) ns')) =
          mkvals ((Some (VE (var_plus x (inject_Z c))), Some (VS (inject_Z dz)), Some (zev sg n)) :: combine (combine inits diffs) (ez sg ns')) /\
        (forall y a d, In (y, (a, d)) (mkvals ((Some (VE (var_plus x (inject_Z c))), Some (VS (inject_Z dz)), Some (zev sg n)) :: combine (combine inits diffs) (ez sg ns'))) -> 0 <= a) /\
        lim_ok i (ez sg (Some n :: ns')) (Some (VS (inject_Z dz)) :: diffs)
          (mkvals ((Some (VE (var_plus x (inject_Z c))), Some (VS (inject_Z dz)), Some (zev sg n)) :: combine (combine inits diffs) (ez sg ns'))) (limz sg lim) (limz sg lim')).
      { intros sg Hsg lim1 large1 El L1 E.
        destruct (IH ns' Hal' _ _ _ _ _ _ _ L1 E) as (E1 & H1 & H2 & H3). rewrite <- app_assoc in E1.
        destruct (H3 sg Hsg) as (A & B & C & D). specialize (Hge sg Hsg).
        cbn [mkvals]. change (variable_restricted (var_plus x (inject_Z c))) with (Some x).
        change (e_const (var_plus x (inject_Z c))) with (inject_Z c). cbn [v_int]. rewrite !q_int_inj.
        split; [exact E1|]. split; [exact H1|]. split; [constructor; auto|].
        split; [constructor; [simpl; lia|exact A]|]. split; [cbn [zv map fst snd]; rewrite Ziv; f_equal; exact B|].
        split; [intros y a d [E2|Hi]; [injection E2 as <- <- <-; exact Hge|eauto]|].
        cbn [ez map option_map]. apply lim_var; [exact Hge|]. rewrite <- El. exact D. }
      intros E.
      assert (Hsplit : exists lim1 large1, (forall sg, limz sg lim1 = P_Apply.upd i c dz (zev sg n) (limz sg lim)) /\ lcv W lim1 /\
        diff_scan_v (S i) (combine (combine inits diffs) ns') lim1 (vals ++ [(x, (iv, dz))]) large1 = POk (lim', vals', large')).
      { destruct (dz <? 0) eqn:Ed.
        - destruct (scan_limit i (inject_Z c) dz n iv lim) as [| |lim1] eqn:Es; try discriminate.
          apply Z.ltb_lt in Ed. destruct (scan_limit_ok W _ _ _ _ _ _ Ed Ha Hl Es) as [L1 L2]. eauto.
        - exists lim, large. split; [|auto]. intros sg. unfold P_Apply.upd. now rewrite Ed. }
      destruct Hsplit as (lim1 & large1 & El & L1 & E'). clear E.
      assert (N0 : NN (fun _ => 0)) by (intros y; lia).
      destruct (Fin _ N0 _ _ El L1 E') as (F1 & F2 & F3 & _).
      split; [exact F1|]. split; [exact F2|]. split; [exact F3|].
      intros sg Hsg. destruct (Fin sg Hsg _ _ El L1 E') as (_ & _ & _ & F4). exact F4.
    + cbn [diff_scan_v vmk]. intros E. destruct n as [v|]; [destruct Ha|].
      destruct (IH ns' Hal' _ _ _ _ _ _ _ Hl E) as (E1 & H1 & H2 & H3).
      split; [exact E1|]. split; [exact H1|]. split; [exact H2|]. intros sg Hsg.
      destruct (H3 sg Hsg) as (A & B & C & D). cbn [ez map option_map]. fold (ez sg ns'). cbn [combine mkvals].
      split; [constructor; [simpl; auto|exact A]|]. split; [exact B|]. split; [exact C|]. now apply lim_skip.
Qed.

(** ** new counts *)
Definition cvo (W : list nat) (n n' : option val) : Prop :=
  match n, n' with None, None => True | Some _, Some v => cv W v | _, _ => False end.

Lemma dblock_int i d : dblock i d -> forall v, d = Some v -> exists z, v = VS (inject_Z z).
Proof.
  intros H v ->. destruct i as [[p|e]|], v as [r|f]; simpl in H; try contradiction.
  - destruct H as [_ ->]. eauto.
  - destruct H as (x & c & z & _ & _ & ->). eauto.
Qed.

Lemma diff_nums_v_ok W inits diffs : Forall2 dblock inits diffs -> forall ns, Forall2 (vdalign W) inits ns ->
  forall i reps li final ns', cv W reps -> cv W final ->
  diff_nums_v i reps li final (combine diffs ns) = Some ns' ->
  Forall2 (cvo W) ns ns' /\
  forall sg, (forall n dz, (i <= li)%nat -> nth_error (ez sg ns) (li - i) = Some (Some n) ->
       nth_error diffs (li - i) = Some (Some (VS (inject_Z dz))) -> zev sg final = n + zev sg reps * dz) ->
    ez sg ns' = addk (zev sg reps) (ez sg ns) diffs.
Proof.
  induction 1 as [|o d inits diffs Hb Hf IH]; intros ns Hal i reps li final ns1 Hr Hfin E;
    inversion Hal as [|? n ? ns' Ha Hal']; subst.
  { simpl in E. apply some_inj in E. subst ns1. split; [constructor|reflexivity]. }
  cbn [combine diff_nums_v] in E.
  destruct (diff_nums_v (S i) reps li final (combine diffs ns')) as [l|] eqn:El; [|discriminate].
  destruct (IH ns' Hal' (S i) reps li final l Hr Hfin El) as [F1 F2].
  assert (Tail : forall sg, (forall n0 dz, (i <= li)%nat -> nth_error (ez sg (n :: ns')) (li - i) = Some (Some n0) ->
       nth_error (d :: diffs) (li - i) = Some (Some (VS (inject_Z dz))) -> zev sg final = n0 + zev sg reps * dz) ->
       ez sg l = addk (zev sg reps) (ez sg ns') diffs).
  { intros sg Hl. apply F2. intros n1 dz H1 H2 H3.
    apply Hl; [lia| |]; replace (li - i)%nat with (S (li - S i)) by lia; auto. }
  destruct n as [n|].
  2:{ apply some_inj in E. subst ns1. split; [constructor; simpl; auto|]. intros sg Hl.
      unfold addk. cbn [ez map option_map combine]. fold (ez sg l) (ez sg ns').
      rewrite (Tail sg Hl). reflexivity. }
  assert (Cn : cv W n) by (destruct o as [[p|e]|]; simpl in Ha; try contradiction; tauto).
  destruct d as [d|].
  2:{ destruct o as [[p|e]|]; simpl in Hb, Ha; contradiction. }
  destruct (dblock_int _ _ Hb d eq_refl) as [dz ->].
  destruct (Nat.eqb i li) eqn:Ei.
  - apply Nat.eqb_eq in Ei. subst li. apply some_inj in E. subst ns1.
    split; [constructor; [simpl; now apply v_simp_cv|exact F1]|]. intros sg Hl.
    unfold addk. cbn [ez map option_map combine]. fold (ez sg l) (ez sg ns'). rewrite (Tail sg Hl).
    rewrite v_simp_zev. rewrite (Hl (zev sg n) dz); auto; rewrite ?Nat.sub_diag; auto.
    cbn [add1]. rewrite zev_VS. reflexivity.
  - apply some_inj in E. subst ns1.
    assert (Cm : cv W (v_mul reps (VS (inject_Z dz)))) by now apply cv_mul_r.
    split; [constructor; [simpl; apply v_simp_cv, cv_add; auto|exact F1]|]. intros sg Hl.
    unfold addk. cbn [ez map option_map combine]. fold (ez sg l) (ez sg ns'). rewrite (Tail sg Hl).
    rewrite v_simp_zev, zev_add by (apply Cn || apply Cm).
    rewrite zev_muli by (try apply iat_VS; now apply (cv_zev W)).
    cbn [add1]. rewrite !zev_VS. reflexivity.
Qed.

Section Shape.
  Context {Sym : Type} (i0 : Sym) (W : list nat).
  Lemma mk_blks_form_v P h : hform i0 P h ->
    forall vs, Forall2 (cvo W) (map k_num h) vs -> hform i0 (cv W) (blks (map k_sym h) vs).
  Proof.
    intros H. induction H as [|s v h Hv H IH]; simpl; intros vs F;
      inversion F as [|? o ? vs' E F']; subst.
    - inversion F'; subst. destruct o; simpl in E; [contradiction|]. apply hform_end.
    - destruct o as [u|]; simpl in E; [|contradiction]. simpl. apply hform_blk; auto.
  Qed.
  Lemma mk_form_v P t : tform i0 P t -> forall vs, Forall2 (cvo W) (nums t) vs -> tform i0 (cv W) (mk (shape t) vs).
  Proof.
    intros [A B] vs F. unfold nums in F. apply Forall2_split in F.
    rewrite rev_length, map_length in F. destruct F as [F1 F2].
    apply Forall2_rev in F1, F2. rewrite rev_involutive in F1, F2.
    unfold mk, shape. split; cbn [ct_l ct_r]; rewrite map_length; eapply mk_blks_form_v; eauto.
  Qed.
  Definition nzb (b : blk val Sym) : Prop := match k_num b with Some v => n_eq0 vops v = false | None => True end.
  Definition nz (t : ctape val Sym) : Prop := Forall nzb (ct_l t) /\ Forall nzb (ct_r t).
  Notation zfilter := (filter (fun b : blk val Sym => match k_num b with Some v => negb (n_eq0 vops v) | None => true end)).
  Lemma zfilter_form P h : hform i0 P h -> hform i0 P (zfilter h).
  Proof.
    induction 1 as [|s v h Hv H IH]; cbn [filter k_num]; [apply hform_end|].
    destruct (n_eq0 vops v); cbn [negb]; auto. now apply hform_blk.
  Qed.
  Lemma zfilter_nz h : Forall nzb (zfilter h).
  Proof.
    apply Forall_forall. intros b Hb. apply filter_In in Hb. destruct Hb as [_ Hb]. unfold nzb.
    destruct (k_num b); auto. now apply negb_true_iff.
  Qed.
  Lemma zfilter_den sg h : hwf0 i0 (map (eb sg) h) ->
    hwf0 i0 (map (eb sg) (zfilter h)) /\ seqv (hden i0 (map (eb sg) (zfilter h))) (hden i0 (map (eb sg) h)).
  Proof.
    induction h as [|[s [v|]] h IH]; cbn [filter map k_num]; intros H.
    - inversion H.
    - cbn [eb k_sym k_num option_map map] in H. inversion H as [|? z ? Hz H']; subst. destruct (IH H') as [A B].
      destruct (n_eq0 vops v) eqn:E; cbn [negb map].
      + split; [exact A|]. pose proof (vops_eq0 _ E sg) as E0. unfold eb at 2. cbn [k_sym k_num option_map hden].
        rewrite E0. change (Z.to_nat 0) with 0%nat. cbn [repeat]. eapply seqv_trans; [exact B|]. apply seqv_sym, sapp_nil.
      + unfold eb at 1 3 5. cbn [k_sym k_num option_map hden]. split; [constructor; auto|].
        now apply sapp_ext.
    - cbn [eb k_sym k_num option_map map] in H. inversion H; subst. destruct h; [|discriminate].
      split; [exact H|]. apply seqv_refl.
  Qed.
  Lemma drop_zeros_form P t : tform i0 P t -> tform i0 P (drop_zeros_v t) /\ nz (drop_zeros_v t) /\ ct_dir (drop_zeros_v t) = ct_dir t.
  Proof.
    intros [A B]. destruct t as [d l r]. unfold drop_zeros_v. cbn [ct_dir ct_l ct_r] in *.
    split; [split; now apply zfilter_form|]. split; [split; apply zfilter_nz|reflexivity].
  Qed.
  Lemma drop_zeros_den {St} sg t (q : St) : twf0 i0 (et sg t) ->
    twf0 i0 (et sg (drop_zeros_v t)) /\ deq (tden i0 (et sg (drop_zeros_v t)) q) (tden i0 (et sg t) q).
  Proof.
    intros [A B]. destruct t as [d l r]. unfold drop_zeros_v, et in *. cbn [ct_dir ct_l ct_r] in *.
    destruct (zfilter_den sg l A) as [A1 A2]. destruct (zfilter_den sg r B) as [B1 B2].
    split; [split; assumption|]. unfold tden, deq. cbn. auto.
  Qed.
End Shape.

(** ** substitutions of the variables of a rule *)
Definition csubs (W : list nat) (s : subs) : Prop := Forall (fun xu => cv W (snd xu)) s.
Lemma csubs_get W s x u : csubs W s -> subs_get x s = Some u -> cv W u.
Proof.
  induction 1 as [|[y v] s Hv _ IH]; simpl; [discriminate|].
  destruct (Nat.eqb x y); auto. intros [= <-]. exact Hv.
Qed.
Lemma subs_get_none (s : subs) x : ~ In x (map fst s) -> subs_get x s = None.
Proof.
  induction s as [|[y v] s IH]; simpl; auto. intros H. destruct (Nat.eqb_spec x y) as [->|]; [tauto|]. apply IH. tauto.
Qed.
Lemma subs_get_some (s : subs) x : In x (map fst s) -> exists u, subs_get x s = Some u.
Proof.
  induction s as [|[y v] s IH]; simpl; [tauto|]. destruct (Nat.eqb_spec x y) as [->|]; eauto. intros [->|H]; [congruence|auto].
Qed.
Lemma csubs_iat W s sg : csubs W s -> Forall (fun xu => iat sg (snd xu)) s.
Proof. intros H. eapply Forall_impl; [|exact H]. intros a Ha. now apply (cv_zev W). Qed.
Lemma csubs_srt W s : csubs W s -> Forall (fun xv => val_srt (snd xv)) s.
Proof. intros H. eapply Forall_impl; [|exact H]. intros a Ha. apply lv_srt, Ha. Qed.
Lemma csubs_lin W s : csubs W s -> lsubs s.
Proof. intros H. eapply Forall_impl; [|exact H]. intros a Ha. apply Ha. Qed.

Lemma gv_from W v F : val_srt v -> (forall sg, NN sg -> (evv (rho sg) v == inject_Z (F sg))%Q) ->
  (forall sg sg', NN sg -> NN sg' -> (forall x, In x W -> sg x = sg' x) -> F sg = F sg') -> gv W v.
Proof.
  intros A B C. split; [exact A|]. split.
  - intros sg Hsg. exists (F sg). now apply B.
  - intros sg sg' H H' E. rewrite !B by assumption. now rewrite (C sg sg').
Qed.
Lemma evv_zev sg v z : (evv (rho sg) v == inject_Z z)%Q -> zev sg v = z.
Proof. apply zev_eq. Qed.

Lemma gv_subst W V v s w : gv V v -> csubs W s -> (forall x, In x V -> In x W \/ In x (map fst s)) ->
  (forall sg, NN sg -> NN (ssub sg s)) -> v_subst v s = Some w ->
  gv W w /\ forall sg, NN sg -> zev sg w = zev (ssub sg s) v.
Proof.
  intros Hv Hs HV HN E.
  assert (G : forall sg, NN sg -> iat sg w /\ zev sg w = zev (ssub sg s) v).
  { intros sg Hsg. apply (subst_zev sg V); auto. now apply (csubs_iat W). }
  split; [|intros sg Hsg; apply (G sg Hsg)].
  apply (gv_from W w (fun sg => zev (ssub sg s) v)).
  - apply (v_subst_srt v s); [now apply (csubs_srt W)|apply Hv|exact E].
  - intros sg Hsg. destruct (G sg Hsg) as [A <-]. now apply iat_spec.
  - intros sg sg' H H' Ex. apply (gv_dep V); auto. intros x Hx. unfold ssub.
    destruct (subs_get x s) as [u|] eqn:Eu.
    + apply (cv_dep W); auto. eapply csubs_get; eauto.
    + destruct (HV x Hx) as [Hw|Hi]; auto. destruct (subs_get_some _ _ Hi) as [u Eu']. congruence.
Qed.

Lemma seen_subst_v W V last acc num : gv W acc -> gv V num -> csubs W last -> map fst last = V ->
  (forall x, In x W -> ~ In x V) -> (forall sg, NN sg -> NN (ssub sg last)) ->
  forall seen d, dgv V seen ->
  seen_map_opt (fun ls => v_subst (v_sub acc (v_sub num ls)) last) seen = Some d ->
  dgv W d /\ map fst d = map fst seen /\
  forall sg, NN sg -> ed sg d = map (fun kv => (fst kv, zev sg acc - (zev (ssub sg last) num - snd kv))) (ed (ssub sg last) seen).
Proof.
  intros Ha Hn Hs HV Hd HN. induction seen as [|[k v] seen IH]; intros d Hse E.
  - unfold seen_map_opt in E. simpl in E. apply some_inj in E. subst d. split; [constructor|]. split; [reflexivity|]. reflexivity.
  - inversion Hse as [|? ? Hv Hse']; subst. unfold seen_map_opt in *. cbn [map_opt fst snd] in E, Hv.
    destruct (v_subst (v_sub acc (v_sub num v)) last) as [w|] eqn:Ew; [|discriminate]. cbn [option_map] in E.
    destruct (map_opt _ seen) as [d'|] eqn:Ed in E; [|discriminate]. apply some_inj in E. subst d.
    destruct (IH d' Hse' Ed) as (A & B & C).
    assert (Gv : gv (W ++ map fst last) (v_sub acc (v_sub num v))).
    { apply gv_sub; [eapply gv_mono; [|exact Ha]; apply incl_appl, incl_refl|].
      apply gv_sub; (eapply gv_mono; [|eassumption]); apply incl_appr, incl_refl. }
    destruct (gv_subst W _ _ last w Gv Hs) as [G1 G2]; auto.
    { intros x Hx. apply in_app_iff in Hx. tauto. }
    split; [constructor; auto|]. split; [simpl; congruence|]. intros sg Hsg.
    cbn [ed map fst snd]. f_equal; [|exact (C sg Hsg)]. f_equal. rewrite (G2 sg Hsg).
    pose proof (HN sg Hsg) as HNs.
    pose proof (gv_iat _ _ _ Ha HNs) as I1. pose proof (gv_iat _ _ _ Hn HNs) as I2. pose proof (gv_iat _ _ _ Hv HNs) as I3.
    rewrite (zev_subi _ acc) by (auto using iat_sub). rewrite zev_subi by assumption.
    f_equal. apply (gv_dep W); auto. intros x Hx. unfold ssub. rewrite subs_get_none; auto.
Qed.

Lemma vmk_vars W inits diffs : Forall2 dblock inits diffs -> forall ns, Forall2 (vdalign W) inits ns ->
  map fst (vmk (combine (combine inits diffs) ns)) = flat_map nvars inits.
Proof.
  induction 1 as [|o d inits diffs Hb Hf IH]; intros ns Hal; inversion Hal as [|? n ? ns' Ha Hal']; subst; auto.
  cbn [combine flat_map]. destruct o as [[p|e]|].
  - simpl. apply (IH ns' Hal').
  - destruct d as [[r|]|]; simpl in Hb; try contradiction.
    destruct Hb as (x & c & dz & -> & Hc & ->). destruct n as [n|]; simpl in Ha; [|contradiction].
    cbn [vmk]. change (variable_restricted (var_plus x (inject_Z c))) with (Some x). cbn [v_int]. rewrite q_int_inj.
    simpl. f_equal. apply (IH ns' Hal').
  - simpl. apply (IH ns' Hal').
Qed.

Lemma subs_get_mapv (mv : list (nat * (val * Z))) f x v : NoDup (map fst mv) -> In (x, v) mv ->
  subs_get x (map (fun xv => (fst xv, f xv)) mv) = Some (f (x, v)).
Proof.
  induction mv as [|[y w] l IH]; simpl; intros N H; [tauto|]. inversion N as [|? ? Hy N']; subst.
  destruct H as [H|H].
  - injection H as -> ->. now rewrite Nat.eqb_refl.
  - destruct (Nat.eqb_spec x y) as [->|]; auto.
    exfalso. apply Hy. apply in_map_iff. exists (y, v). auto.
Qed.
Lemma zv_fst sg mv : map fst (zv sg mv) = map fst mv.
Proof. unfold zv. now rewrite map_map. Qed.
Lemma zv_in sg mv x v d : In (x, (v, d)) mv -> In (x, (zev sg v, d)) (zv sg mv).
Proof. intros H. unfold zv. apply in_map_iff. exists (x, (v, d)). auto. Qed.
Lemma zv_dep W sg sg' mv : Forall (fun xv => cv W (fst (snd xv))) mv -> (forall x, In x W -> sg x = sg' x) ->
  zv sg mv = zv sg' mv.
Proof.
  intros H E. unfold zv. apply map_ext_in. intros [x [v d]] Hx. cbn [fst snd].
  rewrite Forall_forall in H. specialize (H _ Hx). cbn [fst snd] in H. rewrite (cv_dep W v sg sg'); auto.
Qed.

(** ** general rules *)
Definition vgalign (W : list nat) (vm : option nat * option Q) (n : option val) : Prop :=
  match vm, n with
  | (None, None), None => True
  | (None, Some _), Some v => cv W v /\ forall sg, zev sg v = 1
  | (Some _, Some _), Some v => cv W v
  | _, _ => False
  end.
Fixpoint vgl (bs : list (option nat * option Q * option val)) : subs :=
  match bs with
  | [] => []
  | (Some x, Some m, Some v) :: bs => (x, v) :: vgl bs
  | _ :: bs => vgl bs
  end.

Lemma fits_min_v_ok W V vm result : Forall2 (gblock V) vm result -> forall ns, Forall2 (vgalign W) vm ns ->
  forall asg asg', fits_min_v (combine vm ns) asg = Some (Some asg') ->
  asg' = asg ++ vgl (combine vm ns) /\ csubs W (vgl (combine vm ns)) /\
  map fst (vgl (combine vm ns)) = flat_map ovar (map fst vm) /\
  forall sg, NN sg -> Forall2 galign vm (ez sg ns) /\
    (forall x p z, In (Some x, Some (inject_Z p), Some z) (combine vm (ez sg ns)) -> p <= z) /\
    map (fun xu => (fst xu, zev sg (snd xu))) (vgl (combine vm ns)) = gl (combine vm (ez sg ns)).
Proof.
  induction 1 as [|[x p] r vm result Hb Hf IH]; intros ns Hal asg asg' E;
    inversion Hal as [|? n ? ns' Ha Hal']; subst.
  - simpl in E. injection E as <-. cbn [combine vgl]. rewrite app_nil_r. split; [reflexivity|]. split; [constructor|].
    split; [reflexivity|]. intros sg _. split; [constructor|]. split; [intros ? ? ? []|reflexivity].
  - cbn [combine] in E |- *.
    destruct x as [x|], p as [p|], n as [n|]; simpl in Ha; try contradiction; cbn [fits_min_v vgl] in *.
    + destruct (always_ge n (VS p)) eqn:Eg; [|discriminate].
      destruct r as [w|]; simpl in Hb; [|contradiction]. destruct Hb as (_ & _ & z & -> & Hz).
      destruct (IH ns' Hal' _ _ E) as (E1 & H1 & H1' & H2). rewrite <- app_assoc in E1.
      split; [exact E1|]. split; [constructor; auto|]. split; [cbn [map fst flat_map ovar app]; now f_equal|].
      intros sg Hsg. destruct (H2 sg Hsg) as (A & B & C).
      assert (Hge : z <= zev sg n).
      { apply (always_ge_zev _ _ sg Hsg) in Eg; [now rewrite zev_VS in Eg|now apply (cv_zev W)|apply iat_VS]. }
      cbn [ez map option_map combine gl fst snd]. fold (ez sg ns'). split; [constructor; [simpl; lia|exact A]|].
      split; [|now f_equal]. intros y p z0 [E0|Hi]; [|eauto]. injection E0 as <- E0 <-.
      assert (p = z) by (unfold inject_Z in E0; congruence). lia.
    + destruct (IH ns' Hal' _ _ E) as (E1 & H1 & H1' & H2).
      split; [exact E1|]. split; [exact H1|]. split; [exact H1'|].
      intros sg Hsg. destruct (H2 sg Hsg) as (A & B & C). destruct Ha as [_ Ha].
      cbn [ez map option_map combine gl fst snd]. fold (ez sg ns'). split; [constructor; [simpl; apply Ha|exact A]|].
      split; [|exact C]. intros y p' z0 [E0|Hi]; [discriminate|eauto].
    + destruct (IH ns' Hal' _ _ E) as (E1 & H1 & H1' & H2).
      split; [exact E1|]. split; [exact H1|]. split; [exact H1'|].
      intros sg Hsg. destruct (H2 sg Hsg) as (A & B & C).
      cbn [ez map option_map combine gl fst snd]. fold (ez sg ns'). split; [constructor; [simpl; auto|exact A]|].
      split; [|exact C]. intros y p' z0 [E0|Hi]; [discriminate|eauto].
Qed.

Lemma nd_get_zev sg (l : subs) x :
  nd_get x (map (fun xu => (fst xu, zev sg (snd xu))) l) = option_map (zev sg) (subs_get x l).
Proof. induction l as [|[y u] l IH]; simpl; auto. destruct (Nat.eqb x y); auto. Qed.

Lemma cv_subst W V v s w : lv v -> incl (v_variables v) V -> csubs W s -> map fst s = V -> v_subst v s = Some w ->
  cv W w /\ forall sg, zev sg w = zev (ssub sg s) v.
Proof.
  intros Hv HV Hs Hk E. pose proof (csubs_lin W s Hs) as Ls. split; [split|].
  - destruct (v_subst_lin v s Hv Ls) as (w' & E' & Lw). congruence.
  - intros x Hx. destruct (v_subst_vars _ _ _ _ Hv Ls E Hx) as (y & Hy & Hm).
    destruct (subs_get_some s y) as [u Eu]; [rewrite Hk; auto|]. rewrite Eu in Hm. apply (csubs_get W s y u Hs Eu). exact Hm.
  - intros sg. now apply zev_ssub.
Qed.

Lemma vnums_eqb_ez sg a : forall b, vnums_eqb a b = true -> ez sg a = ez sg b.
Proof.
  induction a as [|[x|] a IH]; intros [|[y|] b]; simpl; intros H; try discriminate; auto.
  - apply andb_true_iff in H. destruct H as [H1 H2]. f_equal; [|auto]. f_equal. unfold zev.
    now rewrite (v_eqb_zev _ _ H1 (rho sg)).
  - f_equal. auto.
Qed.

Section RecApply.
  Context {Sym St : Type}.
  Variables (Gd : Prop) (T : table) (M : machine Sym St) (Rp : dcfg Sym St -> config -> Prop)
            (halted : St -> Prop).
  Hypothesis MS : msound Gd T M Rp halted.
  Hypothesis SW : seen_wf M Rp.
  Notation i0 := (m_init_sym M).
  Notation wf := (twf i0).
  Notation wf0 := (twf0 i0).
  Notation den := (tden i0).

  (** as [trans_ok], but the new tape may have empty blocks *)
  Definition mtrans (q : St) (t1 t2 : ctape Z Sym) (n : Z) (d : ndict Z) : Prop :=
    forall c, Rp (den t1 q) c -> wf0 t2 /\
      0 < n /\ exists c', steps T (Z.to_nat n) c = Some c' /\ Rp (den t2 q) c' /\ zseen_ok T c n d.
  Lemma trans_mtrans q t1 t2 n d : trans_ok T M Rp q t1 t2 n d -> mtrans q t1 t2 n d.
  Proof. intros [A B] c R. split; [now apply twf_0|now apply B]. Qed.

  Lemma mruns q (t : nat -> ctape Z Sym) (nn : nat -> Z) (dd : nat -> ndict Z) K N :
    (forall i, map fst (dd i) = K) ->
    (forall i, (i <= N)%nat -> mtrans q (t i) (t (S i)) (nn i) (dd i)) ->
    mtrans q (t 0%nat) (t (S N)) (series (S N) nn) (map (fun kv => (fst kv, series N nn + snd kv)) (dd N)).
  Proof.
    intros HK HT c R0. induction N as [|N IH].
    - pose proof (HT 0%nat ltac:(lia)) as H. destruct (H c R0) as (Hw & P & c' & E & R & Z0).
      cbn [series]. rewrite Z.add_0_l. split; [exact Hw|]. split; [exact P|]. exists c'.
      split; [exact E|]. split; [exact R|].
      replace (map (fun kv => (fst kv, 0 + snd kv)) (dd 0%nat)) with (dd 0%nat); auto.
      rewrite <- (map_id (dd 0%nat)) at 1. apply map_ext. intros [a b]. reflexivity.
    - destruct IH as (_ & P & c1 & E & R & Z1); [intros; apply HT; lia|].
      pose proof (HT (S N) ltac:(lia)) as H. destruct (H c1 R) as (Hw & P2 & c2 & E2 & R2 & Z2).
      cbn [series] in *. set (s := series N nn + nn N) in *.
      split; [exact Hw|]. split; [lia|]. exists c2.
      split; [rewrite Z2Nat.inj_add by lia; now apply (steps_compose T _ _ c c1 c2)|].
      split; [exact R2|]. eapply zseen_extend; eauto; try lia.
      rewrite map_map. simpl. now rewrite !HK.
  Qed.

  Lemma mforever q (Inv : ctape Z Sym -> Prop) K :
    (forall t, Inv t -> exists t' n d, Inv t' /\ map fst d = K /\ mtrans q t t' n d) ->
    forall t c, Inv t -> Rp (den t q) c ->
    nonhalting T c /\ (forall x, In x K <-> recurs T c x) /\ only_in T c K.
  Proof.
    intros H t c It R.
    pose (J := fun c => exists t, Inv t /\ Rp (den t q) c).
    assert (HJ : forall c, J c -> exists n e, (0 < n)%nat /\ steps T n c = Some e /\ J e /\
      forall x, In x K <-> exists i e, (i < n)%nat /\ steps T i c = Some e /\ st e = x).
    { clear t c It R. intros c (t & It & R). destruct (H t It) as (t' & n & d & It' & HK & HT).
      destruct (HT c R) as (_ & P & c' & E & R' & Zs). exists (Z.to_nat n), c'.
      split; [lia|]. split; [exact E|]. split; [exists t'; auto|]. subst K. eapply zseen_in; eauto. }
    assert (Jc : J c) by (exists t; auto). split.
    - apply (nonhalting_invariant T J); auto. intros c0 H0. destruct (HJ c0 H0) as (n & e & ? & ? & ? & _). eauto.
    - split; [intros x; apply (recurs_invariant T J K); auto|apply (only_in_invariant T J K); auto].
  Qed.

  (** a true difference rule, proven with or without other rules *)
  Record rdiff_ok (sh : dir * list Sym * list Sym) (q : St) (inits diffs : list (option val))
         (num : val) (seen : ndict val) : Prop := {
    rd_blocks : Forall2 dblock inits diffs;
    rd_nodup : NoDup (flat_map nvars inits);
    rd_steps : gv (flat_map nvars inits) num;
    rd_seen : dgv (flat_map nvars inits) seen /\ NoDup (map fst seen);
    rd_run : forall sg, NN sg ->
      mtrans q (mk sh (ez sg inits)) (mk sh (addk 1 (ez sg inits) diffs)) (zev sg num) (ed sg seen) }.

  Lemma diff_rdiff sh q inits diffs num seen : diff_ok T M Rp sh q inits diffs num seen -> rdiff_ok sh q inits diffs num seen.
  Proof.
    intros [B N S1 S2 (D1 & D2 & D3) R]. constructor; auto.
    - apply cv_gv. split; auto.
    - split; [|exact D2]. unfold dlin, dvars in *. unfold dgv. rewrite Forall_forall in *. intros kv Hk. apply cv_gv. split; [apply D1, Hk|apply D3, Hk].
    - intros sg Hsg. apply trans_mtrans, R. intros x _. apply Hsg.
  Qed.

  (** the outcome of applying a rule to a symbolic tape *)
  Definition vres_ok (W : list nat) (t : ctape val Sym) (q : St) (r : prover_result val Sym) : Prop :=
    match r with
    | PNothing => True
    | PInf rs => forall sg c, NN sg -> Rp (den (et sg t) q) c ->
        nonhalting T c /\ inf_states_ok T c rs /\ inf_only T c rs
    | PApply t' n seen =>
      tform i0 (cv W) t' /\ nz t' /\ ct_dir t' = ct_dir t /\ gv W n /\
      (forall d, seen = Some d -> dgv W d /\ NoDup (map fst d)) /\
      forall sg, NN sg -> forall c, Rp (den (et sg t) q) c -> wf0 (et sg t') /\
        0 < zev sg n /\ exists c', steps T (Z.to_nat (zev sg n)) c = Some c' /\ Rp (den (et sg t') q) c' /\
          forall d, seen = Some d -> zseen_ok T c (zev sg n) (ed sg d)
    end.

  Lemma vapply_diff_ok W next sh q inits diffs num seen t nx r large :
    rdiff_ok sh q inits diffs num seen -> ipoly 2 num ->
    (forall x, In x W -> (x < next)%nat /\ ~ In x (flat_map nvars inits)) ->
    tform i0 (cv W) t -> shape t = sh -> Forall2 (vdalign W) inits (nums t) ->
    apply_diff_rule_v next inits diffs num seen t = Some (nx, Some (r, large)) ->
    vres_ok W t q r.
  Proof.
    intros [Db Dn Ds [Dse Dk] Dr] Hp HW Ft Sh Al. unfold apply_diff_rule_v.
    pose proof (vmk_vars W _ _ Db _ Al) as Hvars.
    destruct (diff_scan_v 0 (combine (combine inits diffs) (nums t)) None [] false) as [| |[[lim vals] lg]] eqn:Es; [discriminate|discriminate|].
    destruct (diff_scan_v_ok W _ _ Db _ Al _ _ _ _ _ _ _ (I : lcv W None) Es) as (Ev & Lc & Cm & Hsc).
    rewrite app_nil_l in Ev. subst vals. clear Es.
    set (mv := vmk (combine (combine inits diffs) (nums t))) in *.
    set (V := flat_map nvars inits) in *.
    assert (Nd : NoDup (map fst mv)) by (rewrite Hvars; exact Dn).
    assert (Hget : forall x, In x V -> exists iv d, In (x, (iv, d)) mv /\ cv W iv).
    { intros x Hx. rewrite <- Hvars in Hx. apply in_map_iff in Hx. destruct Hx as ([y [iv d]] & <- & Hx).
      exists iv, d. split; [exact Hx|]. rewrite Forall_forall in Cm. exact (Cm _ Hx). }
    assert (Hsgi : forall sg i x iv d, In (x, (iv, d)) mv -> sgi (zv sg mv) i x = zev sg iv + i * d).
    { intros sg i x iv d Hx. unfold sgi. rewrite (vget_nodup (zv sg mv) x (zev sg iv, d)); auto.
      - now rewrite zv_fst.
      - now apply zv_in. }
    assert (Hez : forall sg, NN sg -> forall i, ez (sgi (zv sg mv) i) inits = addk i (ez sg (nums t)) diffs).
    { intros sg Hsg i. destruct (Hsc sg Hsg) as (A & B & _). rewrite B. apply sgi_ez; auto.
      intros x v Hx. apply vget_nodup; auto. rewrite <- B, zv_fst. exact Nd. }
    assert (Et : forall sg, NN sg -> mk sh (addk 0 (ez sg (nums t)) diffs) = et sg t).
    { intros sg Hsg. destruct (Hsc sg Hsg) as (A & _). rewrite (addk_0 inits) by assumption. subst sh. symmetry. apply et_self. }
    assert (HNs : forall sg i, (forall x, In x V -> 0 <= sgi (zv sg mv) i x) -> NN (sgi (zv sg mv) i)).
    { intros sg i H x. destruct (in_dec Nat.eq_dec x V) as [Hx|Hx]; auto. unfold sgi.
      destruct (vget x (zv sg mv)) as [v|] eqn:E; [|lia]. exfalso. apply Hx. rewrite <- Hvars, <- (zv_fst sg).
      apply in_map_iff. exists (x, v). split; auto. now apply vget_in. }
    assert (Run : forall sg, NN sg -> forall i, NN (sgi (zv sg mv) i) ->
      mtrans q (mk sh (addk i (ez sg (nums t)) diffs)) (mk sh (addk (i + 1) (ez sg (nums t)) diffs))
        (zev (sgi (zv sg mv) i) num) (ed (sgi (zv sg mv) i) seen)).
    { intros sg Hsg i Hi. pose proof (Dr _ Hi) as H. rewrite (Hez sg Hsg), addk_add in H. exact H. }
    destruct lim as [[[reps li] final]|].
    2:{ intros E. apply some_inj in E. injection E as <- <- <-. simpl. intros sg c Hsg R.
        destruct (Hsc sg Hsg) as (A & B & C & D). destruct D as [_ D]. rewrite <- B in C, D.
        destruct (mforever q (fun t' => exists i, 0 <= i /\ t' = mk sh (addk i (ez sg (nums t)) diffs)) (map fst seen))
          with (t := et sg t) (c := c) as [H1 H2]; auto.
        - intros t' (i & Hi & ->). exists (mk sh (addk (i + 1) (ez sg (nums t)) diffs)), (zev (sgi (zv sg mv) i) num), (ed (sgi (zv sg mv) i) seen).
          split; [exists (i + 1); split; [lia|auto]|]. split; [apply ed_keys|]. apply Run; auto. apply HNs.
          intros x Hx. destruct (Hget x Hx) as (iv & d & Hin & _). rewrite (Hsgi sg i x iv d Hin).
          apply (zv_in sg) in Hin. pose proof (C _ _ _ Hin). pose proof (D _ _ _ Hin). nia.
        - exists 0. split; [lia|]. symmetry. now apply Et.
        - split; [exact H1|]. now apply recur_states_ok. }
    destruct Lc as [Cr Cf].
    destruct (match reps with VE e => e_is_const e | VS _ => false end); [discriminate|].
    destruct (match reps with VS q0 => Qle_bool q0 0 | VE _ => false end); [discriminate|]. cbv zeta.
    set (sub := map _ mv). set (last := map _ mv).
    assert (HR : forall sg, NN sg -> 1 <= zev sg reps).
    { intros sg Hsg. destruct (Hsc sg Hsg) as (_ & _ & _ & D). destruct D as (_ & _ & D & _). apply D. exact I. }
    assert (Hpos : forall sg, NN sg -> forall i, 0 <= i < zev sg reps -> NN (sgi (zv sg mv) i)).
    { intros sg Hsg i Hi. apply HNs. intros x Hx. destruct (Hget x Hx) as (iv & d & Hin & _).
      rewrite (Hsgi sg i x iv d Hin). destruct (Hsc sg Hsg) as (_ & B & C & D). destruct D as (D & _).
      apply (zv_in sg) in Hin. fold mv in B. rewrite <- B in C, D. pose proof (C _ _ _ Hin).
      destruct (Z_lt_le_dec d 0) as [Hneg|Hnn]; [|nia]. pose proof (D _ _ _ Hin Hneg). nia. }
    set (k := next) in *.
    assert (Hk : ~ In k W) by (intros Hk; destruct (HW k Hk); unfold k in *; lia).
    assert (Hsetk : forall sg i v, cv W v -> zev (setk sg k i) v = zev sg v).
    { intros sg i v Hv. apply (cv_dep W); auto. intros x Hx. unfold setk. destruct (Nat.eqb_spec x k) as [->|]; [contradiction|auto]. }
    assert (Gsub : forall x iv d, In (x, (iv, d)) mv ->
      subs_get x sub = Some (v_add iv (v_mul (VS (inject_Z d)) (VE (var_expr k))))).
    { intros x iv d Hx. unfold sub. rewrite (subs_get_mapv mv (fun xv => v_add (fst (snd xv))
         (v_mul (VS (inject_Z (snd (snd xv)))) (VE (var_expr k)))) x (iv, d)); auto. }
    assert (Csub : csubs (k :: W) sub).
    { apply Forall_forall. intros xu Hx. unfold sub in Hx. apply in_map_iff in Hx. destruct Hx as ([x [iv d]] & <- & Hx).
      cbn [fst snd]. rewrite Forall_forall in Cm. specialize (Cm _ Hx). cbn [fst snd] in Cm. apply cv_add.
      - eapply cv_mono; [|exact Cm]. intros y Hy. now right.
      - apply cv_mul. split; [apply var_expr_lin|]. intros y Hy. simpl in Hy. simpl. tauto. }
    assert (NNk : forall sg i, NN sg -> NN (setk sg k i)).
    { intros sg i Hsg x. unfold setk. destruct (Nat.eqb x k); [lia|apply Hsg]. }
    assert (Sub : forall sg i x, NN sg -> In x V -> ssub (setk sg k i) sub x = sgi (zv sg mv) (Z.of_nat i) x).
    { intros sg i x Hsg Hx. destruct (Hget x Hx) as (iv & d & Hin & Civ). unfold ssub.
      rewrite (Gsub _ _ _ Hin), (Hsgi sg _ x iv d Hin).
      rewrite zev_add by (apply Civ || apply v_mul_lin, var_expr_lin). rewrite zev_mul by apply var_expr_lin.
      rewrite zev_var, Hsetk by exact Civ. unfold setk. rewrite Nat.eqb_refl. lia. }
    destruct (v_subst num sub) as [this|] eqn:Ethis; [|discriminate].
    assert (Hthis : forall sg, NN sg -> forall i, (i < Z.to_nat (zev sg reps))%nat ->
       (evv (rho (setk sg k i)) this == inject_Z (zev (sgi (zv sg mv) (Z.of_nat i)) num))%Q).
    { intros sg Hsg i Hi. pose proof (Hpos sg Hsg (Z.of_nat i) ltac:(lia)) as HN.
      rewrite (subst_ssub (setk sg k i) num sub this); [|now apply (csubs_iat (k :: W))|exact Ethis].
      rewrite <- (iat_spec _ _ (gv_iat _ _ _ Ds HN)).
      destruct Ds as (_ & _ & Dd). apply Dd; [|exact HN|].
      - intros x. destruct (in_dec Nat.eq_dec x V) as [Hx|Hx]; [rewrite Sub by auto; apply HN|].
        unfold ssub. rewrite subs_get_none; [apply NNk; auto|].
        unfold sub. rewrite map_map. cbn [fst]. change (~ In x (map fst mv)). now rewrite Hvars.
      - intros x Hx. apply Sub; auto. }
    destruct (series_sum this k reps) as [total|] eqn:Etot; [|discriminate].
    set (nn := fun sg (i : nat) => zev (sgi (zv sg mv) (Z.of_nat i)) num).
    assert (Htot : forall sg, NN sg -> (evv (rho sg) total == inject_Z (series (Z.to_nat (zev sg reps)) (nn sg)))%Q).
    { intros sg Hsg. apply (series_sum_Z sg this k reps); auto.
      - apply (v_subst_k k 2 num sub); auto. eapply Forall_impl; [|exact Csub]. intros a Ha. apply lv_k, Ha.
      - pose proof (HR sg Hsg). lia.
      - now apply (cv_zev W).
      - intros i Hi. now apply Hthis. }
    assert (Gtot : gv W total).
    { apply (gv_from W total (fun sg => series (Z.to_nat (zev sg reps)) (nn sg))); auto.
      - apply (series_sum_srt this k reps); [|apply lv_srt, Cr|exact Etot].
        apply (v_subst_srt num sub); [now apply (csubs_srt (k :: W))|apply Ds|exact Ethis].
      - intros sg sg' H H' E. rewrite (cv_dep W reps sg sg') by auto. unfold nn.
        rewrite (zv_dep W sg sg' mv) by auto. reflexivity. }
    destruct (seen_map_opt (fun ls => v_subst (v_sub total (v_sub num ls)) last) seen) as [sd|] eqn:Esd; [|discriminate].
    destruct (diff_nums_v 0 reps li final (combine diffs (nums t))) as [ns|] eqn:Ens; [|discriminate].
    intros E. apply some_inj in E. injection E as <- <- <-.
    destruct (diff_nums_v_ok W _ _ Db _ Al _ _ _ _ _ Cr Cf Ens) as [N1 N2].
    assert (Glast : forall x iv d, In (x, (iv, d)) mv ->
      subs_get x last = Some (v_add iv (v_mul (VS (inject_Z d)) (v_sub reps (VS 1%Q))))).
    { intros x iv d Hx. unfold last. rewrite (subs_get_mapv mv (fun xv => v_add (fst (snd xv))
         (v_mul (VS (inject_Z (snd (snd xv)))) (v_sub reps (VS 1%Q)))) x (iv, d)); auto. }
    assert (Cr1 : cv W (v_sub reps (VS 1%Q))) by (apply cv_sub; auto; apply (cv_VS W 1)).
    assert (Clast : csubs W last).
    { apply Forall_forall. intros xu Hx. unfold last in Hx. apply in_map_iff in Hx. destruct Hx as ([x [iv d]] & <- & Hx).
      cbn [fst snd]. rewrite Forall_forall in Cm. specialize (Cm _ Hx). cbn [fst snd] in Cm. apply cv_add; auto. now apply cv_mul. }
    assert (Flast : map fst last = V).
    { unfold last. rewrite map_map. cbn [fst]. exact Hvars. }
    assert (Last : forall sg x, In x V -> ssub sg last x = sgi (zv sg mv) (zev sg reps - 1) x).
    { intros sg x Hx. destruct (Hget x Hx) as (iv & d & Hin & Civ). unfold ssub.
      rewrite (Glast _ _ _ Hin), (Hsgi sg _ x iv d Hin).
      rewrite zev_add by (apply Civ || apply v_mul_lin, Cr1). rewrite zev_mul by apply Cr1.
      change 1%Q with (inject_Z 1). rewrite zev_sub by (apply Cr || apply VS_lin). rewrite zev_VS. lia. }
    assert (NNl : forall sg, NN sg -> NN (ssub sg last)).
    { intros sg Hsg x. destruct (in_dec Nat.eq_dec x V) as [Hx|Hx].
      - rewrite Last by exact Hx. pose proof (HR sg Hsg). apply Hpos; auto. lia.
      - unfold ssub. rewrite subs_get_none by (now rewrite Flast). apply Hsg. }
    destruct (seen_subst_v W V last total num Gtot Ds Clast Flast (fun x Hx => proj2 (HW x Hx)) NNl seen sd Dse Esd) as (S1 & S2 & S3).
    pose proof (mk_form_v i0 W _ _ Ft ns N1) as Fns.
    destruct (drop_zeros_form i0 _ _ Fns) as (F1 & F2 & F3).
    cbn [vres_ok]. split; [exact F1|]. split; [exact F2|]. split; [exact F3|]. split; [exact Gtot|].
    split; [intros d E; apply some_inj in E; subst d; split; [exact S1|rewrite S2; exact Dk]|].
    intros sg Hsg. pose proof (HR sg Hsg) as HR1.
    assert (Ezn : et sg (mk (shape t) ns) = mk sh (addk (zev sg reps) (ez sg (nums t)) diffs)).
    { rewrite et_mk, Sh. f_equal. apply N2. intros n dz _ Hn Hd. rewrite Nat.sub_0_r in Hn, Hd.
      destruct (Hsc sg Hsg) as (_ & _ & _ & D). destruct D as (_ & _ & _ & [D|(_ & n0 & d0 & D1 & D2 & D3)]); [discriminate|].
      rewrite Nat.sub_0_r in D1, D2. rewrite Hn in D1. rewrite Hd in D2. injection D1 as <-. injection D2 as <-. exact D3. }
    destruct (Z.to_nat (zev sg reps)) as [|N] eqn:EN; [lia|].
    assert (Zt : zev sg total = series (S N) (nn sg)).
    { apply evv_zev. rewrite <- EN. now apply Htot. }
    pose proof (mruns q (fun i => mk sh (addk (Z.of_nat i) (ez sg (nums t)) diffs)) (nn sg)
                (fun i => ed (sgi (zv sg mv) (Z.of_nat i)) seen) (map fst seen) N) as Hm.
    cbv beta in Hm. change (Z.of_nat 0) with 0 in Hm. rewrite (Et sg Hsg) in Hm.
    replace (Z.of_nat (S N)) with (zev sg reps) in Hm by lia. rewrite <- Ezn in Hm.
    assert (Hm' : mtrans q (et sg t) (et sg (mk (shape t) ns)) (series (S N) (nn sg))
      (map (fun kv => (fst kv, series N (nn sg) + snd kv)) (ed (sgi (zv sg mv) (Z.of_nat N)) seen))).
    { apply Hm.
    { intros i. apply ed_keys. }
    { intros i Hi. pose proof (Run sg Hsg (Z.of_nat i) (Hpos sg Hsg (Z.of_nat i) ltac:(lia))) as H.
      replace (Z.of_nat (S i)) with (Z.of_nat i + 1) by lia. exact H. } }
    intros c R. destruct (Hm' c R) as (Wm & P & c' & E & R' & Zs). rewrite Zt.
    destruct (drop_zeros_den i0 sg _ q Wm) as [W1 Dq]. split; [exact W1|]. split; [exact P|].
    exists c'. split; [exact E|]. split; [eapply (ms_ext _ _ _ _ _ MS); [|exact R']; apply deq_sym; exact Dq|].
    intros d Ed. apply some_inj in Ed. subst d. rewrite (S3 sg Hsg), Zt.
    assert (El : forall v, gv V v -> zev (ssub sg last) v = zev (sgi (zv sg mv) (Z.of_nat N)) v).
    { intros v Hv. apply (gv_dep V); auto.
      - apply Hpos; auto. lia.
      - intros x Hx. rewrite Last by exact Hx. do 2 f_equal. lia. }
    replace (map (fun kv => (fst kv, series (S N) (nn sg) - (zev (ssub sg last) num - snd kv))) (ed (ssub sg last) seen))
      with (map (fun kv => (fst kv, series N (nn sg) + snd kv)) (ed (sgi (zv sg mv) (Z.of_nat N)) seen)); [exact Zs|].
    unfold ed. rewrite !map_map. apply map_ext_in. intros [kk v] Hv. cbn [fst snd].
    unfold dgv in Dse. rewrite Forall_forall in Dse. rewrite (El v) by (exact (Dse _ Hv)). rewrite (El num Ds).
    f_equal. cbn [series]. unfold nn at 3. lia.
  Qed.

  Section Gen.
    Variables (sh : dir * list Sym * list Sym) (q : St) (vars : list (option nat)) (mins : list (option Q))
              (result : list (option val)) (inf : bool) (num : val) (seen : ndict val).
    Hypothesis D : gen_ok T M Rp sh q vars mins result inf num seen.
    Hypothesis Hlen : length vars = sh_len sh.
    Notation vm := (combine vars mins).
    Notation V := (flat_map ovar vars).
    Notation agl := (agl vars mins).
    Notation reached := (reached T M Rp sh q vars mins num seen).

    Lemma go_all : length vars = length mins /\ Forall2 (gblock V) vm result /\ NoDup V /\ lv num /\
      incl (v_variables num) V /\ dlin seen /\ NoDup (map fst seen) /\ dvars seen V /\
      forall sg, fits vm sg -> trans_ok T M Rp q (mk sh (map (cnt sg) vm)) (mk sh (ez sg result)) (zev sg num) (ed sg seen).
    Proof. destruct D as [D1 D2 D3 D4 D5 (D6 & D7 & D8) D9 D10]. unfold fits. tauto. Qed.

    Lemma reached_step c cur acc last : reached c cur acc last ->
      (forall x p z, In (Some x, Some (inject_Z p), Some z) (combine vm cur) -> p <= z) ->
      reached c (ez (sgl (agl cur)) result) (acc + zev (sgl (agl cur)) num) (Some (asgl (agl cur))).
    Proof.
      intros Hr Hf. destruct go_all as (_ & _ & _ & _ & _ & _ & _ & _ & Go).
      pose proof (proj1 Hr) as Al. set (sg := sgl (agl cur)).
      pose proof (cur_fits T M Rp sh q vars mins result inf num seen D cur Al Hf) as F. fold sg in F.
      pose proof (Go sg F) as Tr.
      unfold sg at 1 in Tr. rewrite (cur_cnt T M Rp sh q vars mins result inf num seen D) in Tr by exact Al.
      assert (Hc : exists c1 , steps T (Z.to_nat acc) c = Some c1 /\ Rp (den (mk sh cur) q) c1 /\ 0 <= acc).
      { destruct Hr as [_ Hr]. destruct last as [asg|].
        - destruct Hr as (prev & _ & _ & _ & Hp & c' & E & R & _). exists c'. auto with zarith.
        - destruct Hr as [-> R]. exists c. simpl. auto with zarith. }
      destruct Hc as (c1 & E1 & R1 & Hacc).
      split; [now apply (next_ok T M Rp sh q vars mins result inf num seen D)|]. exists cur. split; [reflexivity|]. split; [exact Al|].
      destruct Tr as [W Tr]. destruct (Tr c1 R1) as (P & c2 & E2 & R2 & Z2). split; [exact W|]. split; [lia|].
      exists c2. split; [rewrite Z2Nat.inj_add by lia; now apply (steps_compose T _ _ c c1 c2)|].
      split; [exact R2|]. fold sg.
      replace (map (fun kv => (fst kv, acc + zev sg num - (zev sg num - snd kv))) (ed sg seen))
        with (map (fun kv => (fst kv, acc + snd kv)) (ed sg seen))
        by (apply map_ext; intros [a b]; simpl; f_equal; lia).
      destruct Hr as [_ Hr]. destruct last as [asg|].
      + destruct Hr as (prev & _ & _ & _ & _ & c' & E' & _ & Z1). assert (c' = c1) by congruence. subst c'.
        eapply zseen_extend; eauto; try lia. rewrite map_map. cbn [fst]. now rewrite !ed_keys.
      + destruct Hr as [-> _]. simpl in E1. injection E1 as <-. rewrite Z.add_0_l.
        replace (map (fun kv => (fst kv, 0 + snd kv)) (ed sg seen)) with (ed sg seen); auto.
        rewrite <- (map_id (ed sg seen)) at 1. apply map_ext. intros [a b]. reflexivity.
    Qed.

    Lemma reached_inf c cur acc last : reached c cur acc last ->
      (forall x p z, In (Some x, Some (inject_Z p), Some z) (combine vm cur) -> p <= z) ->
      ez (sgl (agl cur)) result = cur ->
      nonhalting T c /\ (forall x, In x (map fst seen) <-> recurs T c x) /\ only_in T c (map fst seen).
    Proof.
      intros Hr Hf Heq. destruct go_all as (_ & _ & _ & _ & _ & _ & _ & _ & Go).
      pose proof (proj1 Hr) as Al. set (sg := sgl (agl cur)) in *.
      pose proof (cur_fits T M Rp sh q vars mins result inf num seen D cur Al Hf) as F. fold sg in F.
      pose proof (Go sg F) as Tr.
      unfold sg at 1 in Tr. rewrite (cur_cnt T M Rp sh q vars mins result inf num seen D) in Tr by exact Al.
      rewrite Heq in Tr.
      assert (Hc : exists c1 , steps T (Z.to_nat acc) c = Some c1 /\ Rp (den (mk sh cur) q) c1 /\ 0 <= acc).
      { destruct Hr as [_ Hr]. destruct last as [asg|].
        - destruct Hr as (prev & _ & _ & _ & Hp & c' & E & R & _). exists c'. auto with zarith.
        - destruct Hr as [-> R]. exists c. simpl. auto with zarith. }
      destruct Hc as (c1 & E1 & R1 & Hacc).
      destruct (mforever q (fun t => t = mk sh cur) (map fst seen)) with (t := mk sh cur) (c := c1) as (H1 & H2 & H3); auto.
      - intros t ->. exists (mk sh cur), (zev sg num), (ed sg seen). split; [reflexivity|]. split; [apply ed_keys|].
        now apply trans_mtrans.
      - split; [eapply nonhalting_steps; eauto|]. split; [intros x; rewrite H2; symmetry; eapply recurs_steps; eauto|].
        intros j e Ej. destruct (Nat.lt_ge_cases j (Z.to_nat acc)) as [Lt|Ge].
        + destruct Hr as [_ Hr]. destruct last as [asg|]; [|destruct Hr as [-> _]; simpl in Lt; lia].
          destruct Hr as (prev & _ & _ & _ & _ & c' & E' & _ & Z1).
          pose proof (proj2 (zseen_in _ _ _ _ _ E' Z1 (st e)) (ex_intro _ j (ex_intro _ e (conj Lt (conj Ej eq_refl))))) as X.
          rewrite map_map in X. cbn [fst] in X. rewrite ed_keys in X. exact X.
        + apply (H3 (j - Z.to_nat acc)%nat e). replace j with (Z.to_nat acc + (j - Z.to_nat acc))%nat in Ej by lia.
          rewrite steps_add, E1 in Ej. exact Ej.
    Qed.

    (** what has been done after some repetitions, for every value of the variables *)
    Definition vreached (W : list nat) (ns0 cur : list (option val)) (acc : val) (last : option subs) : Prop :=
      Forall2 (vgalign W) vm cur /\ cv W acc /\
      match last with
      | None => acc = VS 0%Q /\ cur = ns0
      | Some asg => csubs W asg /\ map fst asg = V /\ exists prev,
          forall sg, NN sg -> Forall2 galign vm (ez sg prev) /\ wf (mk sh (ez sg cur)) /\
            (forall x, In x V -> ssub sg asg x = sgl (agl (ez sg prev)) x) /\
            forall c, Rp (den (mk sh (ez sg ns0)) q) c ->
              reached c (ez sg cur) (zev sg acc) (Some (asgl (agl (ez sg prev))))
      end.

    Lemma vreached_at W ns0 cur acc last sg c : NN sg -> vreached W ns0 cur acc last ->
      Forall2 galign vm (ez sg cur) -> Rp (den (mk sh (ez sg ns0)) q) c ->
      exists l, reached c (ez sg cur) (zev sg acc) l.
    Proof.
      intros Hsg (_ & _ & H) Al R. destruct last as [asg|].
      - destruct H as (_ & _ & prev & H). destruct (H sg Hsg) as (_ & _ & _ & H1). eauto.
      - destruct H as [-> ->]. exists None. split; [exact Al|]. split; [apply (zev_VS sg 0)|exact R].
    Qed.

    Lemma eval_asg W cur asg : Forall2 (vgalign W) vm cur -> fits_min_v (combine vm cur) [] = Some (Some asg) ->
      csubs W asg /\ map fst asg = V /\
      forall sg, NN sg -> Forall2 galign vm (ez sg cur) /\
        (forall x p z, In (Some x, Some (inject_Z p), Some z) (combine vm (ez sg cur)) -> p <= z) /\
        (forall x, In x V -> ssub sg asg x = sgl (agl (ez sg cur)) x).
    Proof.
      intros Al E. destruct go_all as (Gl & Gb & _).
      destruct (fits_min_v_ok W V _ _ Gb cur Al _ _ E) as (E1 & H1 & H2 & H3). rewrite app_nil_l in E1. subst asg.
      rewrite combine_fst in H2 by exact Gl. split; [exact H1|]. split; [exact H2|].
      intros sg Hsg. destruct (H3 sg Hsg) as (A & B & C). split; [exact A|]. split; [exact B|].
      intros x Hx. unfold ssub, sgl, P_Apply.agl. rewrite <- C, nd_get_zev. rewrite <- H2 in Hx.
      destruct (subs_get_some _ _ Hx) as [u ->]. reflexivity.
    Qed.

    Lemma eval_next W asg next : csubs W asg -> map fst asg = V ->
      map_opt (inf_opt (fun v => v_subst v asg)) result = Some next ->
      Forall2 (vgalign W) vm next /\
      forall sg sg', (forall x, In x V -> ssub sg asg x = sg' x) -> ez sg next = ez sg' result.
    Proof.
      intros Ha HV. destruct go_all as (_ & Gb & _). clear D. revert next. induction Gb as [|[x p] r l rs Hb Hf IH]; intros next E.
      - simpl in E. apply some_inj in E. subst next. split; [constructor|reflexivity].
      - cbn [map_opt] in E. destruct (inf_opt (fun v => v_subst v asg) r) as [o|] eqn:Er; [|discriminate].
        destruct (map_opt _ rs) as [nx|] eqn:En in E; [|discriminate]. apply some_inj in E. subst next.
        destruct (IH nx En) as [A B].
        destruct r as [w|].
        + cbn [inf_opt] in Er. destruct (v_subst w asg) as [w'|] eqn:Ew; [|discriminate]. simpl in Er. apply some_inj in Er. subst o.
          assert (Hw : lv w /\ incl (v_variables w) V).
          { destruct x, p; simpl in Hb; try contradiction; [tauto|]. destruct Hb as [_ ->]. split; [apply VS_lin|intros y []]. }
          destruct Hw as [Lw Vw]. destruct (cv_subst W V w asg w' Lw Vw Ha HV Ew) as [C1 C2].
          split.
          * constructor; [|exact A]. destruct x, p; simpl in Hb |- *; try contradiction; auto.
            split; auto. destruct Hb as [_ ->]. simpl in Ew. apply some_inj in Ew. subst w'. intros sg. apply zev_VS.
          * intros sg sg' Hs. cbn [ez map option_map]. f_equal; [|now apply B]. f_equal. rewrite C2.
            apply zev_ext. intros y Hy. apply Hs. auto.
        + simpl in Er. apply some_inj in Er. subst o. split.
          * constructor; [|exact A]. destruct x, p; simpl in Hb |- *; try contradiction; auto.
          * intros sg sg' Hs. cbn [ez map option_map]. f_equal. now apply B.
    Qed.

    Lemma gen_reps_v_ok W ns0 fuel : forall cur acc last g, vreached W ns0 cur acc last ->
      gen_reps_v fuel vars mins result num cur acc last = Some g ->
      match g with
      | VGInf => forall sg c, NN sg -> Rp (den (mk sh (ez sg ns0)) q) c ->
          nonhalting T c /\ (forall x, In x (map fst seen) <-> recurs T c x) /\ only_in T c (map fst seen)
      | VGDone cur acc last => vreached W ns0 cur acc last
      end.
    Proof.
      destruct go_all as (Gl & Gb & Gn & Ls & Vs & _ & _ & _ & Go).
      induction fuel as [|fuel IH]; intros cur acc last g Hr; cbn [gen_reps_v];
        pose proof (proj1 Hr) as Al;
        destruct (fits_min_v (combine vm cur) []) as [[asg|]|] eqn:Ef; try discriminate;
        try (intros E; apply some_inj in E; subst g; exact Hr).
      destruct (v_subst num asg) as [n|] eqn:En; [|discriminate].
      destruct (map_opt (inf_opt (fun v => v_subst v asg)) result) as [next|] eqn:Ex; [|discriminate].
      destruct (eval_asg W cur asg Al Ef) as (Ca & Va & Ha).
      destruct (cv_subst W V num asg n Ls Vs Ca Va En) as [Cn Zn].
      destruct (eval_next W asg next Ca Va Ex) as [Aln Zx].
      destruct (vnums_eqb next cur) eqn:Ev.
      - intros E. apply some_inj in E. subst g. intros sg c Hsg R. destruct (Ha sg Hsg) as (A & B & C).
        destruct (vreached_at W ns0 cur acc last sg c Hsg Hr A R) as [l Hl].
        apply (reached_inf c _ _ _ Hl B). rewrite <- (Zx sg _ C). now apply vnums_eqb_ez.
      - apply IH. split; [exact Aln|]. split; [apply cv_add; auto; apply Hr|].
        split; [exact Ca|]. split; [exact Va|]. exists cur. intros sg Hsg. destruct (Ha sg Hsg) as (A & B & C).
        split; [exact A|].
        pose proof (cur_fits T M Rp sh q vars mins result inf num seen D (ez sg cur) A B) as F.
        destruct (Go _ F) as [Wf _]. rewrite (Zx sg _ C). split; [exact Wf|]. split; [exact C|].
        intros c R. destruct (vreached_at W ns0 cur acc last sg c Hsg Hr A R) as [l Hl].
        pose proof (reached_step c _ _ _ Hl B) as H.
        rewrite zev_add by (apply Cn || apply (proj1 (proj2 Hr))). rewrite Zn.
        rewrite (zev_ext _ (sgl (agl (ez sg cur))) num) by (intros y Hy; apply C; auto). exact H.
    Qed.

    Lemma vapply_gen_ok W mr t r large : (forall x, In x W -> ~ In x V) ->
      tform i0 (cv W) t -> shape t = sh -> Forall2 (vgalign W) vm (nums t) ->
      apply_general_rule_v mr vars mins result inf num seen t = Some (Some (r, large)) ->
      vres_ok W t q r.
    Proof.
      intros HW Ft Sh Al. unfold apply_general_rule_v. destruct go_all as (Gl & Gb & Gn & Ls & Vs & Ds & Dk & Dv & Go).
      destruct mr as [|mr']; [discriminate|]. set (mr := S mr').
      destruct (fits_min_v (combine vm (nums t)) []) as [fitz|] eqn:Ef; [|discriminate].
      assert (Et : forall sg, mk sh (ez sg (nums t)) = et sg t) by (intros sg; subst sh; symmetry; apply et_self).
      destruct (inf && match fitz with Some _ => true | None => false end) eqn:Ei.
      { apply andb_true_iff in Ei. destruct Ei as [Hinf Hfit]. destruct fitz as [asg|]; [|discriminate].
        intros E. apply some_inj in E. apply some_inj in E. injection E as <- <-. intros sg c Hsg R.
        destruct (eval_asg W _ asg Al Ef) as (_ & _ & Ha). destruct (Ha sg Hsg) as (A & B & C).
        rewrite <- Et in R.
        destruct (mforever q (fun t => exists sg, (forall x, In x V -> 0 <= sg x) /\ fits vm sg /\ t = mk sh (map (cnt sg) vm)) (map fst seen))
          with (t := mk sh (ez sg (nums t))) (c := c) as [H1 H2]; auto.
        - intros t' (sg0 & Hs & F & ->). destruct (gen_inf_step T M Rp sh q vars mins result inf num seen D Hlen sg0 Hinf Hs F) as (sg' & Hs' & F' & E').
          exists (mk sh (map (cnt sg') vm)), (zev sg0 num), (ed sg0 seen).
          split; [eauto|]. split; [apply ed_keys|]. rewrite <- E'. apply trans_mtrans. now apply Go.
        - exists (sgl (agl (ez sg (nums t)))). rewrite (cur_cnt T M Rp sh q vars mins result inf num seen D) by exact A.
          split; [|split; [now apply (cur_fits T M Rp sh q vars mins result inf num seen D)|reflexivity]].
          intros x Hx. destruct (cur_get T M Rp sh q vars mins result inf num seen D _ x A Hx) as (z & E & ->).
          enough (1 <= z) by lia. apply (galign_pos vm (ez sg (nums t)) x); [exact A|]. now apply nd_get_In.
        - split; [exact H1|]. now apply recur_states_ok. }
      destruct (gen_reps_v mr vars mins result num (nums t) (VS 0%Q) None) as [g|] eqn:Eg; [|discriminate].
      pose proof (gen_reps_v_ok W (nums t) mr (nums t) (VS 0%Q) None g) as Hg. 
      assert (H0 : vreached W (nums t) (nums t) (VS 0%Q) None).
      { split; [exact Al|]. split; [apply (cv_VS W 0)|auto]. }
      specialize (Hg H0 Eg). destruct g as [|cur acc last].
      { intros E. apply some_inj in E. apply some_inj in E. injection E as <- <-. intros sg c Hsg R. rewrite <- Et in R.
        destruct (Hg sg c Hsg R) as [H1 H2]. split; [exact H1|]. now apply recur_states_ok. }
      destruct last as [asg|]; [|discriminate]. cbv zeta.
      destruct Hg as (Alc & Cacc & Ca & Va & prev & Hp).
      assert (Nc : Forall2 (cvo W) (nums t) cur).
      { clear -Al Alc. revert cur Alc. induction Al as [|[x p] n l ns Ha _ IH]; intros cur Alc; inversion Alc; subst; constructor; auto.
        destruct x, p, n, y; simpl in *; try contradiction; auto. tauto. }
      pose proof (mk_form_v i0 W _ _ Ft cur Nc) as Fns.
      destruct (drop_zeros_form i0 _ _ Fns) as (F1 & F2 & F3).
      pose proof (cv_gv _ _ Cacc) as Gacc.
      assert (Gnum : gv V num) by (apply cv_gv; split; auto).
      assert (Gseen : dgv V seen).
      { unfold dgv. rewrite Forall_forall. unfold dlin, dvars in *. rewrite Forall_forall in Ds, Dv.
        intros kv Hk. apply cv_gv. split; [apply Ds, Hk|apply Dv, Hk]. }
      assert (NNl : forall sg, NN sg -> NN (ssub sg asg)).
      { intros sg Hsg x. destruct (Hp sg Hsg) as (A & _ & C & _). destruct (in_dec Nat.eq_dec x V) as [Hx|Hx].
        - rewrite C by exact Hx. destruct (cur_get T M Rp sh q vars mins result inf num seen D _ x A Hx) as (z & E & ->).
          enough (1 <= z) by lia. apply (galign_pos vm (ez sg prev) x); [exact A|]. now apply nd_get_In.
        - unfold ssub. rewrite subs_get_none by (now rewrite Va). apply Hsg. }
      assert (Main : forall od,
         match seen with [] => od = None
         | _ => exists d, seen_map_opt (fun ls => v_subst (v_sub acc (v_sub num ls)) asg) seen = Some d /\ od = Some d end ->
         vres_ok W t q (PApply (drop_zeros_v (mk (shape t) cur)) acc od)).
      { intros od Hod. cbn [vres_ok]. split; [exact F1|]. split; [exact F2|]. split; [exact F3|]. split; [exact Gacc|].
        assert (Hse : forall d, od = Some d -> dgv W d /\ map fst d = map fst seen /\
          forall sg, NN sg -> ed sg d = map (fun kv => (fst kv, zev sg acc - (zev (ssub sg asg) num - snd kv))) (ed (ssub sg asg) seen)).
        { intros d ->. destruct seen as [|kv0 sd0] eqn:Esn; [discriminate|]. rewrite <- Esn in *.
          destruct Hod as (d' & E & Ed). apply some_inj in Ed. subst d'.
          now apply (seen_subst_v W V asg acc num Gacc Gnum Ca Va HW NNl seen d). }
        split; [intros d Ed; destruct (Hse d Ed) as (S1 & S2 & _); split; [exact S1|rewrite S2; exact Dk]|].
        intros sg Hsg. destruct (Hp sg Hsg) as (A & Wc & C & Hr).
        assert (Ezn : et sg (mk (shape t) cur) = mk sh (ez sg cur)) by (rewrite et_mk, Sh; reflexivity).
        pose proof (twf_0 _ _ Wc) as Wm. rewrite <- Ezn in Wm.
        destruct (drop_zeros_den i0 sg _ q Wm) as [W1 Dq].
        intros c R. split; [exact W1|]. rewrite <- Et in R. destruct (Hr c R) as [_ (prev' & Epv & _ & _ & P & c' & E & R' & Zs)].
        split; [exact P|]. exists c'. split; [exact E|]. split.
        - eapply (ms_ext _ _ _ _ _ MS); [apply deq_sym; exact Dq|]. rewrite Ezn. exact R'.
        - intros d Ed. destruct (Hse d Ed) as (_ & _ & S3). rewrite (S3 sg Hsg).
          assert (Eq : agl prev' = agl (ez sg prev)).
          { assert (G : forall l l', asgl l = asgl l' -> l = l').
            { induction l as [|[a b] l IHl]; intros [|[a' b'] l']; simpl; intros H; try discriminate; auto.
              unfold inject_Z in H. injection H as -> -> H. f_equal. auto. }
            now apply G. }
          rewrite Eq in Zs.
          assert (El : forall v, gv V v -> zev (ssub sg asg) v = zev (sgl (agl (ez sg prev))) v).
          { intros v Hv. apply (gv_dep V); auto. intros x. destruct (in_dec Nat.eq_dec x V) as [Hx|Hx].
            - rewrite <- C by exact Hx. now apply NNl.
            - unfold sgl. destruct (nd_get x (agl (ez sg prev))) as [z|] eqn:Ez; [|lia]. apply nd_get_In in Ez.
              enough (1 <= z) by lia. now apply (galign_pos vm (ez sg prev) x). }
          replace (map (fun kv => (fst kv, zev sg acc - (zev (ssub sg asg) num - snd kv))) (ed (ssub sg asg) seen))
            with (map (fun kv => (fst kv, zev sg acc - (zev (sgl (agl (ez sg prev))) num - snd kv))) (ed (sgl (agl (ez sg prev))) seen)); [exact Zs|].
          unfold ed. rewrite !map_map. apply map_ext_in. intros [kk v] Hv. cbn [fst snd].
          unfold dgv in Gseen. rewrite Forall_forall in Gseen. rewrite (El v) by (exact (Gseen _ Hv)). rewrite (El num Gnum). reflexivity. }
      destruct seen as [|kv0 sd0] eqn:Esn.
      - intros E. apply some_inj in E. apply some_inj in E. injection E as <- <-. now apply Main.
      - destruct (seen_map_opt (fun ls => v_subst (v_sub acc (v_sub num ls)) asg) (kv0 :: sd0)) as [d|] eqn:Ed; [|discriminate].
        intros E. apply some_inj in E. apply some_inj in E. injection E as <- <-. apply Main. eauto.
    Qed.
  End Gen.
End RecApply.
