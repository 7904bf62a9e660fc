(** * A configuration made of the same symbols represents some base configuration

    The rule prover runs a machine on a generalised tape.  These lemmas show that
    every instance of the generalised tape represents a base configuration. *)
Require Import ZArith List Lia Bool Arith.
From Verif Require Import Spec_TM M_Turing_Machine P_Stream P_SimLimited P_Macro M_Settings.
Import ListNotations.
Open Scope Z_scope.

Definition occ {Sym St} (C : dcfg Sym St) (s : Sym) : Prop :=
  (exists j, d_l C j = s) \/ (exists j, d_r C j = s).

Definition pumpable {Sym St} (Rp : dcfg Sym St -> config -> Prop) : Prop :=
  forall C c C', Rp C c -> d_st C' = d_st C -> d_dir C' = d_dir C ->
    (forall i, occ C (d_l C' i)) -> (forall i, occ C (d_r C' i)) -> exists c', Rp C' c'.

Lemma simple_pump n m : pumpable (Rsimple n m).
Proof.
  intros C c C' (E & Hn & Hm & o & Eo & Ho) Es Ed Hl Hr.
  assert (G : forall s, occ C s -> (s < m)%nat).
  { intros s [[j <-]|[j <-]]; apply Hm. }
  exists (Cfg (st c) (match d_dir C' with R => 0 | L => -1 end)
            (fun z => if z <? 0 then d_l C' (Z.to_nat (-1 - z)) else d_r C' (Z.to_nat z))).
  unfold Rsimple; cbn [st hd tp]. split; [congruence|]. split; [exact Hn|]. split.
  - intros i. split; apply G; auto.
  - exists 0. split; [destruct (d_dir C'); lia|]. intros i. split.
    + destruct (Z.ltb_spec (0 + Z.of_nat i) 0) as [E1|E1]; [lia|].
      replace (Z.to_nat (0 + Z.of_nat i)) with i by lia. reflexivity.
    + destruct (Z.ltb_spec (0 - 1 - Z.of_nat i) 0) as [E1|E1]; [|lia].
      f_equal. lia.
Qed.

Lemma sapp_in {A} (l : list A) s x : In x l -> exists i, sapp l s i = x.
Proof.
  intros H. apply In_nth_error in H. destruct H as [i H]. exists i. unfold sapp. now rewrite H.
Qed.
Lemma sapp_tail {A} (l : list A) s i : exists j, sapp l s j = s i.
Proof.
  exists (length l + i)%nat. unfold sapp.
  rewrite (proj2 (nth_error_None l _)) by lia. f_equal. lia.
Qed.
Lemma sapp_inv {A} (l : list A) s i x : sapp l s i = x -> In x l \/ exists j, s j = x.
Proof.
  unfold sapp. destruct (nth_error l i) eqn:E; intros <-; eauto. left. eapply nth_error_In; eauto.
Qed.

Section Block.
  Context {Sym St : Type} (M : machine Sym St) (Rp : dcfg Sym St -> config -> Prop) (k : nat).
  Hypothesis Hk : (0 < k)%nat.

  Lemma expr_in r j x : length (r j) = k -> In x (r j) -> exists i, expr M k r i = x.
  Proof.
    intros Hl H. apply (In_nth _ _ (m_init_sym M)) in H. destruct H as (i & Hi & E).
    exists (j * k + i)%nat. unfold expr. rewrite Nat.div_add_l, (Nat.div_small i) by lia.
    rewrite Nat.add_comm, Nat.mod_add, Nat.mod_small by lia. now rewrite Nat.add_0_r.
  Qed.
  Lemma expl_in l j x : length (l j) = k -> In x (l j) -> exists i, expl M k l i = x.
  Proof.
    intros Hl H. destruct (expr_in (fun i => rev (l i)) j x) as (i & E).
    - now rewrite rev_length.
    - now apply in_rev in H.
    - exists i. exact E.
  Qed.
  Lemma expr_inv r i x : (forall j, length (r j) = k) -> expr M k r i = x -> exists j, In x (r j).
  Proof.
    intros Hl E. exists (i / k)%nat. rewrite <- E. unfold expr. apply nth_In.
    rewrite Hl. apply Nat.mod_upper_bound. lia.
  Qed.
  Lemma expl_inv l i x : (forall j, length (l j) = k) -> expl M k l i = x -> exists j, In x (l j).
  Proof.
    intros Hl E. destruct (expr_inv (fun i => rev (l i)) i x) as (j & H).
    - intros j. now rewrite rev_length.
    - exact E.
    - exists j. now apply in_rev.
  Qed.

  Lemma win_occ {St'} (l : nat -> Sym) tape pos d (s : St') r x :
    occ (win l tape pos d s r) x <->
    (exists i, l i = x) \/ In x tape \/ (exists i, r i = x).
  Proof.
    unfold occ, win; simpl. split.
    - intros [[j E]|[j E]].
      + apply sapp_inv in E. destruct E as [E|E]; auto. right; left.
        apply in_rev in E. rewrite <- (firstn_skipn (winpos d pos) tape). apply in_or_app. auto.
      + apply sapp_inv in E. destruct E as [E|E]; auto. right; left.
        rewrite <- (firstn_skipn (winpos d pos) tape). apply in_or_app. auto.
    - intros [[j <-]|[E|[j <-]]].
      + left. apply sapp_tail.
      + rewrite <- (firstn_skipn (winpos d pos) tape) in E. apply in_app_or in E.
        destruct E as [E|E].
        * left. apply sapp_in. now apply -> in_rev.
        * right. now apply sapp_in.
      + right. apply sapp_tail.
  Qed.

  Lemma flatten_occ C x : (forall i, length (d_l C i) = k /\ length (d_r C i) = k) ->
    occ (flatten M k C) x <-> exists b, occ C b /\ In x b.
  Proof.
    intros Hl. assert (HL : forall i, length (d_l C i) = k) by apply Hl.
    assert (HR : forall i, length (d_r C i) = k) by apply Hl.
    assert (HL' : forall i, length (stl (d_l C) i) = k) by (intros; apply Hl).
    assert (HR' : forall i, length (stl (d_r C) i) = k) by (intros; apply Hl).
    unfold flatten. rewrite win_occ. unfold block_lo, block_ro, facing. split.
    - intros H. destruct (d_dir C); destruct H as [[i H]|[H|[i H]]].
      all: try (apply expl_inv in H; [|assumption]); try (apply expr_inv in H; [|assumption]).
      all: try destruct H as (j & H); unfold stl in *; eexists; (split; [|exact H]);
        unfold occ; eauto.
    - intros (b & [[j <-]|[j <-]] & H); destruct (d_dir C).
      all: try (destruct j as [|j];
        [right; left; exact H|]).
      all: first
        [ left; eapply expl_in; [|exact H]; auto; fail
        | right; right; eapply expr_in; [|exact H]; auto; fail
        | left; apply (expl_in (stl (d_l C)) j); [apply HL'|exact H]
        | right; right; apply (expr_in (stl (d_r C)) j); [apply HR'|exact H]
        | idtac ].
  Qed.

  Lemma block_pump : pumpable Rp -> pumpable (Rblock M Rp k).
  Proof.
    intros HP C c C' (Hlen & Hoff & HR) Es Ed Hl Hr.
    assert (Hlen' : forall i, length (d_l C' i) = k /\ length (d_r C' i) = k).
    { assert (G : forall b, occ C b -> length b = k).
      { intros b [[j <-]|[j <-]]; apply Hlen. }
      intros i. split; apply G; auto. }
    destruct (HP (flatten M k C) c (flatten M k C') HR) as (c' & H).
    - unfold flatten, win; simpl. now rewrite Es.
    - unfold flatten, win; simpl. exact Ed.
    - intros i. apply flatten_occ; auto.
      assert (O : occ (flatten M k C') (d_l (flatten M k C') i)) by (left; eauto).
      apply flatten_occ in O; auto. destruct O as (b & [[j <-]|[j <-]] & Hb); eauto.
    - intros i. apply flatten_occ; auto.
      assert (O : occ (flatten M k C') (d_r (flatten M k C') i)) by (right; eauto).
      apply flatten_occ in O; auto. destruct O as (b & [[j <-]|[j <-]] & Hb); eauto.
    - exists c'. split; [exact Hlen'|]. split; [rewrite Es; exact Hoff|exact H].
  Qed.
End Block.

Lemma unback_occ {Sym St} (C : dcfg Sym (backstate Sym St)) x :
  occ (unback C) x <-> occ C x \/ x = b_sym (d_st C).
Proof.
  unfold unback, occ. destruct (d_dir C); simpl; split.
  - intros [[j E]|[[|j] E]]; simpl in E; eauto.
  - intros [[[j E]|[j E]]|E].
    + left; eauto.
    + right. exists (S j). exact E.
    + right. exists O. auto.
  - intros [[[|j] E]|[j E]]; simpl in E; eauto.
  - intros [[[j E]|[j E]]|E].
    + left. exists (S j). exact E.
    + right; eauto.
    + left. exists O. auto.
Qed.

Lemma back_pump {Sym St} (Rp : dcfg Sym St -> config -> Prop) :
  pumpable Rp -> pumpable (Rback Rp).
Proof.
  intros HP C c C' HR Es Ed Hl Hr. unfold Rback in *.
  assert (G : forall x, occ C' x -> occ C x) by (intros x [[j <-]|[j <-]]; auto).
  apply (HP (unback C) c (unback C') HR).
  - unfold unback. rewrite Ed, Es. destruct (d_dir C); reflexivity.
  - unfold unback. rewrite Ed. destruct (d_dir C); reflexivity.
  - intros i. apply unback_occ.
    assert (O : occ (unback C') (d_l (unback C') i)) by (left; eauto).
    apply unback_occ in O. destruct O as [O|O]; [left; auto|right; congruence].
  - intros i. apply unback_occ.
    assert (O : occ (unback C') (d_r (unback C') i)) by (right; eauto).
    apply unback_occ in O. destruct O as [O|O]; [left; auto|right; congruence].
Qed.
