(** * The generalised simulator: shape of the counts and minima of the variables *)
Require Import ZArith List Lia Bool Arith QArith Qround Permutation.
From Verif Require Import Spec_TM M_Turing_Machine P_Stream P_SimLimited P_Macro P_Pump
     M_Expr P_Expr M_Tape M_Simulator P_Tape P_Simulator M_Prover P_Lin P_GenSim.
Import ListNotations.
Open Scope Z_scope.

Lemma NoDup_app_remove_r {A} (l l' : list A) : NoDup (l ++ l') -> NoDup l.
Proof.
  induction l as [|a l IH]; simpl; intros H; [constructor|].
  inversion H; subst. constructor; auto. rewrite in_app_iff in *. tauto.
Qed.
Lemma NoDup_app_remove_l {A} (l l' : list A) : NoDup (l ++ l') -> NoDup l'.
Proof. induction l as [|a l IH]; simpl; intros H; auto. inversion H; auto. Qed.

(** a positive int, or variable + int *)
Definition nform (v : val) : Prop :=
  (exists z, v = VS (inject_Z z) /\ 1 <= z) \/ (exists x d, v = VE (var_plus x (inject_Z d))).
(** the same, or a sum of two different variables (which the prover rejects) *)
Definition pform (v : val) : Prop :=
  nform v \/ exists x y, x <> y /\ In x (v_variables v) /\ In y (v_variables v).

Inductive hform {Sym} (init : Sym) (P : val -> Prop) : list (blk val Sym) -> Prop :=
| hform_end : hform init P [Blk init None]
| hform_blk s v h : P v -> hform init P h -> hform init P (Blk s (Some v) :: h).
Definition tform {Sym} init P (t : ctape val Sym) : Prop := hform init P (ct_l t) /\ hform init P (ct_r t).

Definition nvars (o : option val) : list nat := match o with Some v => v_variables v | None => [] end.
Definition hvars {Sym} (h : list (blk val Sym)) : list nat := flat_map (fun b => nvars (k_num b)) h.
Definition tvars {Sym} (t : ctape val Sym) : list nat := hvars (ct_l t) ++ hvars (ct_r t).

Lemma nform_lin v : nform v -> lv v.
Proof. intros [(z & -> & _)|(x & d & ->)]; [apply VS_lin|apply var_plus_lin]. Qed.
Lemma hform_lin {Sym} (i0 : Sym) h : hform i0 nform h -> hlin h.
Proof. unfold hlin. induction 1; constructor; simpl; auto using nform_lin. Qed.
Lemma tform_lin {Sym} (i0 : Sym) t : tform i0 nform t -> tlin t.
Proof. intros [A B]. split; eauto using hform_lin. Qed.
Lemma hform_mono {Sym} (i0 : Sym) (P P' : val -> Prop) h : (forall v, P v -> P' v) -> hform i0 P h -> hform i0 P' h.
Proof. intros H. induction 1; constructor; auto. Qed.

Lemma var_vars x d : v_variables (VE (var_plus x d)) = [x].
Proof. reflexivity. Qed.
Lemma var_pred x d : v_add (VE (var_plus x (inject_Z d))) (VS (inject_Z (-1))) = VE (var_plus x (inject_Z (d + -1))).
Proof. unfold v_add, e_addS, var_plus. cbn [e_terms e_const]. now rewrite injZ_add. Qed.
Lemma var_not0 x d : e_eqb (var_plus x d) (VS 0) = false.
Proof. unfold e_eqb. simpl. apply andb_false_iff. now right. Qed.

Section Half.
  Context {Sym : Type} (eqb : Sym -> Sym -> bool) (i0 : Sym).

  Lemma pop_form h h' : hform i0 nform h -> pop_one vops h = Some h' ->
    hform i0 nform h' /\ hvars h' = hvars h.
  Proof.
    destruct 1 as [|s v h Hv Hh]; simpl pop_one; intros E; injection E as <-.
    - split; [constructor|reflexivity].
    - destruct Hv as [(z & -> & Hz)|(x & d & ->)].
      + change (v_add (VS (inject_Z z)) (VS (inject_Z (-1)))) with (VS (inject_Z z + inject_Z (-1))%Q).
        rewrite injZ_add, qz_inj. destruct (z + -1 =? 0) eqn:E0.
        * split; [exact Hh|reflexivity].
        * apply Z.eqb_neq in E0. split; [constructor; auto; left; exists (z + -1); split; auto; lia|reflexivity].
      + rewrite var_pred. cbv iota beta. rewrite var_not0.
        split; [constructor; auto; right; eauto|reflexivity].
  Qed.

  Lemma add_form v w : nform v -> nform w -> NoDup (v_variables v ++ v_variables w) ->
    pform (v_add v w) /\ Permutation (v_variables (v_add v w)) (v_variables w ++ v_variables v).
  Proof.
    intros [(z & -> & Hz)|(x & d & ->)] [(z' & -> & Hz')|(y & d' & ->)] N.
    - split; [|constructor]. left; left. exists (z + z'). split; [simpl; now rewrite injZ_add|lia].
    - split.
      + left; right. exists y, (d' + z). unfold v_add, e_addS, var_plus. cbn [e_terms e_const].
        now rewrite injZ_add.
      + reflexivity.
    - split.
      + left; right. exists x, (d + z'). unfold v_add, e_addS, var_plus. cbn [e_terms e_const].
        now rewrite injZ_add.
      + reflexivity.
    - rewrite !var_vars in N. inversion N as [|? ? Hx _]; subst. simpl in Hx.
      assert (Hn : x <> y) by intuition.
      set (tx := Term [(x, 1%nat)] 1%Q). set (ty := Term [(y, 1%nat)] 1%Q).
      assert (E : term_sum [tx] [ty] = [tx; ty] \/ term_sum [tx] [ty] = [ty; tx]).
      { cbn [term_sum]. unfold compare_terms. cbn [tx ty t_vars length Nat.ltb Nat.leb].
        cbn [compare_vps]. destruct (Nat.ltb x y) eqn:E1; [left; reflexivity|].
        destruct (Nat.ltb y x) eqn:E2; [right; reflexivity|].
        apply Nat.ltb_ge in E1, E2. lia. }
      unfold v_add, e_add, var_plus. cbn [e_terms e_const]. fold tx ty.
      destruct E as [-> | ->].
      + split; [right; exists x, y; simpl; auto|]. simpl. apply perm_swap.
      + split; [right; exists x, y; simpl; auto|]. simpl. apply Permutation_refl.
  Qed.

  Lemma push_form h a n h' : hform i0 nform h -> nform n -> NoDup (v_variables n ++ hvars h) ->
    push_num vops eqb h a n = Some h' ->
    (h' = h /\ exists s r, h = Blk s None :: r) \/
    hform i0 pform h' /\ Permutation (hvars h') (v_variables n ++ hvars h).
  Proof.
    intros Hh Hn Nd. destruct Hh as [|s v h Hv Hh]; simpl push_num; intros E; injection E as <-.
    - destruct (eqb i0 a).
      + left. split; eauto.
      + right. split; [constructor; [left; auto|constructor]|]. simpl. apply Permutation_refl.
    - right. destruct (eqb s a).
      + unfold hvars in Nd. simpl in Nd.
        destruct (add_form v n Hv Hn) as [P1 P2].
        { rewrite app_assoc in Nd. apply NoDup_app_remove_r in Nd.
          eapply Permutation_NoDup; [apply Permutation_app_comm|exact Nd]. }
        split; [constructor; auto; eapply hform_mono; [|exact Hh]; left; auto|].
        unfold hvars. simpl. rewrite app_assoc. now apply Permutation_app_tail.
      + split; [|apply Permutation_refl].
        constructor; [left; auto|]. constructor; [left; auto|]. eapply hform_mono; [|exact Hh]. left; auto.
  Qed.
End Half.

(** the whole tape: variables are kept (some may vanish into an infinite block) *)
Definition pvars (a b : list nat) : Prop := exists c, Permutation (a ++ c) b.
Lemma pvars_refl a : pvars a a.
Proof. exists []. now rewrite app_nil_r. Qed.
Lemma pvars_incl a b : pvars a b -> incl a b.
Proof. intros [c P] x Hx. eapply Permutation_in; [exact P|]. apply in_or_app. auto. Qed.
Lemma pvars_nodup a b : pvars a b -> NoDup b -> NoDup a.
Proof.
  intros [c P] N. apply Permutation_sym in P. apply (Permutation_NoDup P) in N.
  now apply NoDup_app_remove_r in N.
Qed.
Lemma pvars_trans a b c : pvars a b -> pvars b c -> pvars a c.
Proof.
  intros [x P] [y P']. exists (x ++ y). rewrite app_assoc.
  eapply perm_trans; [|exact P']. now apply Permutation_app_tail.
Qed.

Section Tape.
  Context {Sym : Type} (eqb : Sym -> Sym -> bool) (i0 : Sym).

  Lemma push_form' h a n h' : hform i0 nform h -> nform n -> NoDup (v_variables n ++ hvars h) ->
    push_num vops eqb h a n = Some h' ->
    hform i0 pform h' /\ pvars (hvars h') (v_variables n ++ hvars h).
  Proof.
    intros Hh Hn Nd E. destruct (push_form eqb i0 h a n h' Hh Hn Nd E) as [[-> _]|[A B]].
    - split; [eapply hform_mono; [|exact Hh]; left; auto|].
      exists (v_variables n). apply Permutation_app_comm.
    - split; auto. exists []. now rewrite app_nil_r.
  Qed.

  Lemma pvars_app a b a' b' : pvars a a' -> pvars b b' -> pvars (a ++ b) (a' ++ b').
  Proof.
    intros [x P] [y Q]. exists (x ++ y).
    eapply perm_trans; [|apply Permutation_app; [exact P|exact Q]].
    rewrite <- !app_assoc. apply Permutation_app_head. rewrite !app_assoc.
    apply Permutation_app_tail. apply Permutation_app_comm.
  Qed.
  Lemma pvars_perm a b b' : pvars a b -> Permutation b b' -> pvars a b'.
  Proof. intros [x P] Q. exists x. eapply perm_trans; eauto. Qed.

  Lemma single_form t a d t' : tform i0 nform t -> NoDup (tvars t) ->
    apply_single_move vops eqb t a d = Some t' ->
    tform i0 pform t' /\ pvars (tvars t') (tvars t) /\ ct_dir t' = d.
  Proof.
    intros [Hl Hr] Nd. unfold apply_single_move.
    destruct (pop_one vops (half (ct_dir t) t)) as [h|] eqn:Ep; [|discriminate].
    assert (Hh0 : hform i0 nform (half (ct_dir t) t)) by (destruct (ct_dir t); auto).
    destruct (pop_form i0 _ h Hh0 Ep) as [Fh Vh].
    destruct (push_num vops eqb _ a (n_of vops 1)) as [h2|] eqn:Eq; [|discriminate].
    intros E. injection E as <-.
    assert (Hlr : pform = pform) by auto.
    assert (Hm : forall h, hform i0 nform h -> hform i0 pform h)
      by (intros ? H; eapply hform_mono; [|exact H]; left; auto).
    assert (Nl : NoDup (hvars (ct_l t))) by (unfold tvars in Nd; now apply NoDup_app_remove_r in Nd).
    assert (Nr : NoDup (hvars (ct_r t))) by (unfold tvars in Nd; now apply NoDup_app_remove_l in Nd).
    assert (G : hform i0 nform (half (opp d) (set_half (ct_dir t) h t)) /\
                NoDup (hvars (half (opp d) (set_half (ct_dir t) h t)))).
    { unfold half, set_half in *. destruct (ct_dir t), d; simpl in *; rewrite ?Vh; auto. }
    destruct G as [G1 G2].
    destruct (push_form' _ a (VS (inject_Z 1)) h2 G1) as [F2 V2]; auto.
    { left. exists 1. split; auto. lia. }
    simpl in V2. split; [|split; [|reflexivity]].
    - unfold tform, set_half, half in *. destruct t as [d0 l r]; destruct d0, d; simpl in *; split; auto.
    - unfold tvars, set_half, half in *. destruct t as [d0 l r]; destruct d0, d; simpl in *;
        rewrite ?Vh in *; apply pvars_app; rewrite ?Vh; auto using pvars_refl.
  Qed.

  Lemma chain_form t a t' n : tform i0 nform t -> NoDup (tvars t) ->
    apply_chain_move vops eqb t a = Some (t', n) ->
    tform i0 pform t' /\ pvars (tvars t') (tvars t) /\ ct_dir t' = ct_dir t /\
    (forall v, n = Some v -> nform v /\ incl (v_variables v) (tvars t)).
  Proof.
    intros [Hl Hr] Nd. unfold apply_chain_move.
    assert (Hm : forall h, hform i0 nform h -> hform i0 pform h)
      by (intros ? H; eapply hform_mono; [|exact H]; left; auto).
    assert (Hh : hform i0 nform (half (ct_dir t) t)) by (destruct (ct_dir t); auto).
    destruct (half (ct_dir t) t) as [|[s m] rest] eqn:Eh; [discriminate|]. cbn [k_num].
    destruct m as [v|].
    2:{ intros E. injection E as <- <-. split; [split; auto|]. split; [apply pvars_refl|].
        split; [reflexivity|discriminate]. }
    inversion Hh as [|? ? ? Fv Fr]; subst. cbn zeta.
    destruct (push_num vops eqb _ a v) as [h2|] eqn:Eq; [|discriminate].
    intros E. injection E as <- <-.
    destruct t as [d l r]. unfold half, set_half, tvars, tform in *. simpl in *.
    destruct d; simpl in *; subst.
    - unfold hvars in Nd; simpl in Nd; fold (hvars rest) (hvars r) in Nd.
      destruct (push_form' r a v h2 Hr Fv) as [F2 V2]; auto.
      { rewrite <- app_assoc in Nd. apply NoDup_app_remove_l with (l := hvars rest).
        eapply Permutation_NoDup; [|exact Nd].
        rewrite !app_assoc. apply Permutation_app_tail. apply Permutation_app_comm. }
      split; [split; auto|]. split; [|split; [reflexivity|]].
      + eapply pvars_perm; [apply pvars_app; [apply pvars_refl|exact V2]|].
        unfold hvars at 4. simpl. fold (hvars rest). rewrite !app_assoc.
        apply Permutation_app_tail, Permutation_app_comm.
      + intros v' E'. injection E' as <-. split; auto. intros x Hx. unfold hvars. simpl.
        rewrite <- app_assoc. apply in_or_app. auto.
    - unfold hvars in Nd; simpl in Nd; fold (hvars rest) (hvars l) in Nd.
      destruct (push_form' l a v h2 Hl Fv) as [F2 V2]; auto.
      { apply NoDup_app_remove_r with (l' := hvars rest).
        eapply Permutation_NoDup; [|exact Nd].
        rewrite !app_assoc. apply Permutation_app_tail. apply Permutation_app_comm. }
      split; [split; auto|]. split; [|split; [reflexivity|]].
      + eapply pvars_perm; [apply pvars_app; [exact V2|apply pvars_refl]|].
        unfold hvars at 4. simpl. fold (hvars rest). rewrite !app_assoc.
        apply Permutation_app_tail, Permutation_app_comm.
      + intros v' E'. injection E' as <-. split; auto. intros x Hx. unfold hvars. simpl.
        apply in_or_app. right. apply in_or_app. auto.
  Qed.
End Tape.

(** ** the minima of the variables *)
Definition minv (V : list nat) (m : ndict Q) : Prop :=
  forall x, In x V -> exists a, nd_get x m = Some (inject_Z a).
Definition valid (sg : nat -> Z) (m : ndict Q) : Prop :=
  forall x a, nd_get x m = Some (inject_Z a) -> 1 <= sg x + a.
(** [m'] has the same variables and smaller minima *)
Definition mle (m' m : ndict Q) : Prop :=
  forall x a, nd_get x m = Some (inject_Z a) -> exists a', nd_get x m' = Some (inject_Z a') /\ a' <= a.
Lemma mle_refl m : mle m m.
Proof. intros x a H. exists a. split; auto. lia. Qed.
Lemma mle_trans a b c : mle a b -> mle b c -> mle a c.
Proof. intros H1 H2 x z H. destruct (H2 _ _ H) as (y & A & B). destruct (H1 _ _ A) as (w & C & D). exists w. split; auto. lia. Qed.
Lemma mle_valid m' m sg : mle m' m -> valid sg m' -> valid sg m.
Proof. intros H V x a E. destruct (H _ _ E) as (a' & E' & L). specialize (V _ _ E'). lia. Qed.
Lemma mle_minv V m' m : mle m' m -> minv V m -> minv V m'.
Proof. intros H V' x Hx. destruct (V' x Hx) as (a & E). destruct (H _ _ E) as (a' & E' & _). eauto. Qed.

Definition above (m : ndict Q) (o : option val) : Prop :=
  match o with
  | Some (VE e) => exists x d a, e = var_plus x (inject_Z d) /\ nd_get x m = Some (inject_Z a) /\ a <= d
  | Some (VS q) => exists z, q = inject_Z z /\ 1 <= z
  | None => True
  end.
Lemma above_mle m' m o : mle m' m -> above m o -> above m' o.
Proof.
  intros H. destruct o as [[q|e]|]; simpl; auto.
  intros (x & d & a & -> & E & Hl). destruct (H _ _ E) as (a' & E' & Hl'). exists x, d, a'.
  repeat split; auto. lia.
Qed.

Lemma nodup_two (l : list nat) x y : x <> y -> In x l -> In y l ->
  exists a b r, nodup Nat.eq_dec l = a :: b :: r.
Proof.
  intros Hn Hx Hy. apply (nodup_In Nat.eq_dec) in Hx, Hy.
  destruct (nodup Nat.eq_dec l) as [|a [|b r]]; simpl in *; eauto; try tauto.
  exfalso. destruct Hx as [<-|[]]. destruct Hy as [<-|[]]. congruence.
Qed.

Lemma update_min_ok V ns : forall m, minv V m ->
  Forall (fun o => match o with Some v => pform v /\ incl (v_variables v) V | None => True end) ns ->
  update_min ns m <> PExn /\
  forall m', update_min ns m = POk m' -> mle m' m /\ Forall (above m') ns.
Proof.
  induction ns as [|o ns IH]; intros m Hm HF.
  - simpl. split; [discriminate|]. intros m' E. injection E as <-. split; [apply mle_refl|constructor].
  - inversion HF as [|? ? H1 H2]; subst. destruct o as [v|]; simpl.
    2:{ destruct (IH m Hm H2) as [A B]. split; auto. intros m' E. destruct (B m' E). split; [auto|].
        constructor; simpl; auto. }
    destruct H1 as [Hp Hi]. destruct Hp as [[(z & -> & Hz)|(x & d & ->)]|(x & y & Hn & Hx & Hy)].
    + simpl. destruct (IH m Hm H2) as [A B]. split; auto. intros m' E. destruct (B m' E). split; [auto|].
      constructor; simpl; eauto.
    + change (nodup Nat.eq_dec (v_variables (VE (var_plus x (inject_Z d))))) with [x]. cbv iota beta.
      destruct (Hm x) as (a & Ea). { apply Hi. simpl. auto. }
      rewrite Ea. change (v_min_val (VE (var_plus x (inject_Z d)))) with (Some (inject_Z d)). cbv iota beta.
      set (a' := if Qle_bool (inject_Z a) (inject_Z d) then inject_Z a else inject_Z d).
      assert (exists z, a' = inject_Z z /\ z <= a /\ z <= d) as (z & Ez & Hz1 & Hz2).
      { unfold a'. destruct (Qle_bool (inject_Z a) (inject_Z d)) eqn:E.
        - apply Qle_bool_iff in E. rewrite <- Zle_Qle in E. exists a. repeat split; auto; lia.
        - exists d. repeat split; auto; try lia.
          destruct (Z_le_gt_dec a d) as [Hle|]; [|lia]. exfalso.
          rewrite Zle_Qle in Hle. apply Qle_bool_iff in Hle. congruence. }
      rewrite Ez.
      assert (Hle : mle (nd_set x (inject_Z z) m) m).
      { intros y b Eb. rewrite nd_get_set. destruct (Nat.eqb y x) eqn:E.
        - apply Nat.eqb_eq in E. subst y. rewrite Ea in Eb. injection Eb as Eb.
          exists z. split; auto. lia.
        - exists b. split; auto. lia. }
      destruct (IH (nd_set x (inject_Z z) m)) as [A B]; auto.
      { eapply mle_minv; eauto. }
      split; auto. intros m' E. destruct (B m' E) as [C D]. split; [eapply mle_trans; eauto|].
      constructor; auto. eapply above_mle; [exact C|]. simpl. exists x, d, z.
      split; [reflexivity|]. split; auto. rewrite nd_get_set, Nat.eqb_refl. reflexivity.
    + destruct (nodup_two _ x y Hn Hx Hy) as (a & b & r & ->). split; discriminate.
Qed.
