(** * The run-length tape denotes a pair of streams *)
Require Import ZArith List Lia Bool Arith.
From Verif Require Import Spec_TM M_Turing_Machine P_Stream P_SimLimited M_Tape.
Import ListNotations.
Open Scope Z_scope.

Section Tape.
  Context {Sym : Type} (eqb : Sym -> Sym -> bool) (init : Sym).
  Hypothesis eqb_eq : forall a b, eqb a b = true <-> a = b.

  (** a well formed half tape: finitely many blocks of positive length, then the
      infinite block of the initial symbol *)
  Inductive hwf : list (blk Z Sym) -> Prop :=
  | hwf_end : hwf [Blk init None]
  | hwf_blk s z h : 0 < z -> hwf h -> hwf (Blk s (Some z) :: h).

  Fixpoint hden (h : list (blk Z Sym)) : nat -> Sym :=
    match h with
    | [] => fun _ => init
    | b :: h => match k_num b with
                | None => fun _ => k_sym b
                | Some z => sapp (repeat (k_sym b) (Z.to_nat z)) (hden h)
                end
    end.

  Definition twf (t : ctape Z Sym) : Prop := hwf (ct_l t) /\ hwf (ct_r t).
  Definition tden {St} (t : ctape Z Sym) (s : St) : dcfg Sym St :=
    DCfg (hden (ct_l t)) (hden (ct_r t)) s (ct_dir t).

  Lemma hden_top b h : hwf (b :: h) -> hden (b :: h) 0%nat = k_sym b.
  Proof.
    intros H. inversion H; subst; simpl; auto.
    destruct (Z.to_nat z) eqn:E; [lia|]. reflexivity.
  Qed.

  Lemma sapp_repeat_S (a : Sym) n s : seqv (sapp (repeat a (S n)) s) (scons a (sapp (repeat a n) s)).
  Proof. apply sapp_cons. Qed.

  Lemma pop_one_ok h : hwf h ->
    exists h', pop_one zops h = Some h' /\ hwf h' /\ seqv (hden h') (stl (hden h)).
  Proof.
    intros H. inversion H as [|s z h0 Hz H0]; subst; simpl.
    - eexists. split; [reflexivity|]. split; [constructor|]. intros i. reflexivity.
    - destruct (z + -1 =? 0) eqn:E.
      + apply Z.eqb_eq in E. replace z with 1 by lia.
        eexists. split; [reflexivity|]. split; auto. intros i. simpl.
        change [s] with (repeat s 1). unfold stl. rewrite sapp_repeat_S. simpl.
        now rewrite sapp_nil.
      + apply Z.eqb_neq in E. eexists. split; [reflexivity|]. split; [constructor; auto; lia|].
        simpl. intros i. unfold stl.
        replace (Z.to_nat z) with (S (Z.to_nat (z + -1))) by lia.
        rewrite sapp_repeat_S. reflexivity.
  Qed.

  Lemma push_num_ok h a n : hwf h -> 0 < n ->
    exists h', push_num zops eqb h a n = Some h' /\ hwf h' /\
               seqv (hden h') (sapp (repeat a (Z.to_nat n)) (hden h)).
  Proof.
    intros H Hn. inversion H as [|s z h0 Hz H0]; subst; simpl.
    - destruct (eqb init a) eqn:E.
      + apply eqb_eq in E. subst. eexists. split; [reflexivity|]. split; [constructor|].
        simpl. apply seqv_sym, sapp_repeat.
      + eexists. split; [reflexivity|]. split; [constructor; auto|]. simpl. auto.
    - destruct (eqb s a) eqn:E.
      + apply eqb_eq in E. subst. eexists. split; [reflexivity|]. split; [constructor; auto; lia|].
        simpl. replace (Z.to_nat (z + n)) with (Z.to_nat n + Z.to_nat z)%nat by lia.
        rewrite repeat_app. apply sapp_app.
      + eexists. split; [reflexivity|]. split; [constructor; auto|]. simpl. auto.
  Qed.

  Lemma half_ok t d : twf t -> hwf (half d t).
  Proof. intros [? ?]. destruct d; auto. Qed.

  Lemma single_move_ok {St} t a d (s s' : St) : twf t ->
    exists t', apply_single_move zops eqb t a d = Some t' /\ twf t' /\ ct_dir t' = d /\
               deq (tden t' s') (apply_t (tden t s) a s' d).
  Proof.
    intros W. unfold apply_single_move.
    destruct (pop_one_ok _ (half_ok t (ct_dir t) W)) as (h & -> & Hh & Hd).
    set (t1 := set_half (ct_dir t) h t).
    assert (W1 : twf t1) by (destruct W; unfold t1, set_half; destruct (ct_dir t); split; simpl; auto).
    destruct (push_num_ok _ a 1 (half_ok t1 (opp d) W1) ltac:(lia)) as (h2 & E2 & Hh2 & Hd2).
    change (n_of zops 1) with 1. rewrite E2. eexists. split; [reflexivity|].
    assert (D1l : seqv (hden (ct_l t1)) (match ct_dir t with L => stl (hden (ct_l t)) | R => hden (ct_l t) end))
      by (unfold t1, half, set_half in *; destruct (ct_dir t); simpl; auto).
    assert (D1r : seqv (hden (ct_r t1)) (match ct_dir t with R => stl (hden (ct_r t)) | L => hden (ct_r t) end))
      by (unfold t1, half, set_half in *; destruct (ct_dir t); simpl; auto).
    destruct W1 as [W1l W1r].
    change (Z.to_nat 1) with 1%nat in Hd2. simpl in Hd2.
    assert (Hd3 : seqv (hden h2) (scons a (hden (half (opp d) t1)))).
    { eapply seqv_trans; [exact Hd2|]. eapply seqv_trans; [apply sapp_cons|].
      apply scons_ext, sapp_nil. }
    split; [|split; [reflexivity|]].
    - destruct d; split; simpl; auto.
    - unfold tden, apply_t; simpl. destruct d; simpl in *.
      + split; [exact D1l|]. split; [|split; reflexivity].
        eapply seqv_trans; [exact Hd3|]. apply scons_ext. exact D1r.
      + split; [|split; [exact D1r|split; reflexivity]].
        eapply seqv_trans; [exact Hd3|]. apply scons_ext. exact D1l.
  Qed.

  (** ** chain moves *)
  Fixpoint chain_t {St} (k : nat) (a : Sym) (C : dcfg Sym St) : dcfg Sym St :=
    match k with
    | O => C
    | S k => chain_t k a (apply_t C a (d_st C) (d_dir C))
    end.

  Lemma chain_t_ext {St} k a : forall (C C' : dcfg Sym St), deq C C' -> deq (chain_t k a C) (chain_t k a C').
  Proof.
    induction k as [|k IH]; simpl; intros C C' H; auto.
    apply IH. destruct H as (H1 & H2 & H3 & H4). rewrite H3, H4.
    apply apply_ext. repeat split; auto.
  Qed.

  Lemma sapp_repeat_scons (a : Sym) n s :
    seqv (sapp (repeat a n) (scons a s)) (scons a (sapp (repeat a n) s)).
  Proof.
    induction n as [|n IH]; simpl.
    - intros i. rewrite (sapp_nil (scons a s)). apply scons_ext. apply seqv_sym, sapp_nil.
    - eapply seqv_trans; [apply sapp_cons|]. apply scons_ext.
      eapply seqv_trans; [exact IH|]. apply seqv_sym, sapp_cons.
  Qed.

  Lemma chain_t_R {St} k a b (s : St) : forall l r,
    deq (chain_t k a (DCfg l (sapp (repeat b k) r) s R)) (DCfg (sapp (repeat a k) l) r s R).
  Proof.
    induction k as [|k IH]; simpl; intros l r.
    - split; [apply seqv_sym, sapp_nil|]. split; [apply sapp_nil|]. split; reflexivity.
    - eapply deq_trans.
      + apply (chain_t_ext k a _ (DCfg (scons a l) (sapp (repeat b k) r) s R)).
        unfold apply_t; simpl. repeat split; simpl; auto.
      + eapply deq_trans; [apply IH|]. split; [|split; [auto|split; reflexivity]].
        simpl. eapply seqv_trans; [apply sapp_repeat_scons|]. apply seqv_sym, sapp_cons.
  Qed.

  Lemma chain_t_L {St} k a b (s : St) : forall l r,
    deq (chain_t k a (DCfg (sapp (repeat b k) l) r s L)) (DCfg l (sapp (repeat a k) r) s L).
  Proof.
    induction k as [|k IH]; simpl; intros l r.
    - split; [apply sapp_nil|]. split; [apply seqv_sym, sapp_nil|]. split; reflexivity.
    - eapply deq_trans.
      + apply (chain_t_ext k a _ (DCfg (sapp (repeat b k) l) (scons a r) s L)).
        unfold apply_t; simpl. repeat split; simpl; auto.
      + eapply deq_trans; [apply IH|]. split; [auto|]. split; [|split; reflexivity].
        simpl. eapply seqv_trans; [apply sapp_repeat_scons|]. apply seqv_sym, sapp_cons.
  Qed.

  Lemma chain_move_fin {St} t a (s : St) b z rest : twf t ->
    half (ct_dir t) t = Blk b (Some z) :: rest ->
    exists t', apply_chain_move zops eqb t a = Some (t', Some z) /\ twf t' /\ 0 < z /\
               ct_dir t' = ct_dir t /\
               deq (tden t' s) (chain_t (Z.to_nat z) a (tden t s)).
  Proof.
    intros W E. unfold apply_chain_move. rewrite E. simpl k_num. cbv iota beta.
    pose proof (half_ok t (ct_dir t) W) as Hh. rewrite E in Hh.
    inversion Hh as [|? ? ? Hz Hr]; subst.
    set (t1 := set_half (ct_dir t) rest t).
    assert (Ed : ct_dir t1 = ct_dir t) by (unfold t1, set_half; destruct (ct_dir t); reflexivity).
    assert (W1 : twf t1) by (destruct W; unfold t1, set_half; destruct (ct_dir t); split; simpl; auto).
    destruct (push_num_ok _ a z (half_ok t1 (opp (ct_dir t)) W1) Hz) as (h2 & E2 & Hh2 & Hd2).
    cbn zeta. rewrite Ed, E2. eexists. split; [reflexivity|].
    destruct W as [Wl Wr]. unfold t1, half, set_half, tden in *.
    destruct t as [d l r]; simpl in *. destruct d; simpl in *; subst.
    - split; [split; auto|]. split; [exact Hz|]. split; [reflexivity|]. apply deq_sym.
      eapply deq_trans; [apply chain_t_L|]. split; [auto|].
      split; [apply seqv_sym; exact Hd2|split; reflexivity].
    - split; [split; auto|]. split; [exact Hz|]. split; [reflexivity|]. apply deq_sym.
      eapply deq_trans; [apply chain_t_R|]. split; [apply seqv_sym; exact Hd2|].
      split; [auto|split; reflexivity].
  Qed.

  Lemma chain_move_inf t a b rest :
    half (ct_dir t) t = Blk b None :: rest -> apply_chain_move zops eqb t a = Some (t, None).
  Proof. intros E. unfold apply_chain_move. now rewrite E. Qed.

  Lemma top_ok {St} t (s : St) : twf t ->
    exists b, ct_top t = Some b /\ k_sym b = facing (tden t s).
  Proof.
    intros W. unfold ct_top. pose proof (half_ok t (ct_dir t) W) as H.
    destruct (half (ct_dir t) t) as [|b h] eqn:E; [inversion H|].
    exists b. split; [reflexivity|]. rewrite <- (hden_top b h H), <- E.
    unfold facing, tden, half; simpl. destruct (ct_dir t); reflexivity.
  Qed.

  (** ** counting *)
  Variable ev : Sym -> nat.
  Hypothesis ev_init : ev init = 0%nat.

  Definition hcount (h : list (blk Z Sym)) : Z :=
    fold_right (fun b acc => match k_num b with
                             | Some k => Z.of_nat (ev (k_sym b)) * k | None => 0 end + acc) 0 h.

  Lemma hcount_app a b : hcount (a ++ b) = hcount a + hcount b.
  Proof. unfold hcount. induction a as [|x a IH]; simpl; lia. Qed.
  Lemma hcount_rev h : hcount (rev h) = hcount h.
  Proof.
    induction h as [|b h IH]; simpl; auto. rewrite hcount_app, IH. simpl. lia.
  Qed.
  Lemma half_nonzeros_count h : forall n, half_nonzeros zops ev h n = n + hcount h.
  Proof.
    unfold half_nonzeros. induction h as [|b h IH]; intros n; simpl; [lia|].
    rewrite IH. destruct (k_num b); simpl; lia.
  Qed.

  Lemma list_sum_repeat f (a : Sym) n : list_sum (map f (repeat a n)) = (n * f a)%nat.
  Proof. induction n; simpl; lia. Qed.

  Lemma hcount_ssum h : hwf h -> 0 <= hcount h /\ ssum ev (hden h) (Z.to_nat (hcount h)).
  Proof.
    induction 1 as [|s z h Hz H [IH1 IH2]]; simpl.
    - split; [lia|]. now apply ssum_const.
    - split; [nia|]. apply ssum_sapp. exists (Z.to_nat (hcount h)). split; [exact IH2|].
      rewrite list_sum_repeat.
      rewrite Z2Nat.inj_add by nia. rewrite Z2Nat.inj_mul by lia. rewrite Nat2Z.id. lia.
  Qed.

  Lemma nonzeros_count t v :
    ct_nonzeros zops ev v t = Z.of_nat v + hcount (ct_l t) + hcount (ct_r t).
  Proof.
    unfold ct_nonzeros. rewrite !half_nonzeros_count, !hcount_rev. simpl. lia.
  Qed.

  Lemma nonzeros_ok t v : twf t ->
    0 <= ct_nonzeros zops ev v t /\
    exists a b, ssum ev (hden (ct_l t)) a /\ ssum ev (hden (ct_r t)) b /\
                Z.to_nat (ct_nonzeros zops ev v t) = (a + b + v)%nat.
  Proof.
    intros [Hl Hr]. rewrite nonzeros_count.
    destruct (hcount_ssum _ Hl) as [P1 S1]. destruct (hcount_ssum _ Hr) as [P2 S2].
    split; [lia|]. exists (Z.to_nat (hcount (ct_l t))), (Z.to_nat (hcount (ct_r t))).
    split; auto. split; auto. lia.
  Qed.

  Lemma init_wf d : twf (ct_init init d).
  Proof. split; constructor. Qed.

  (** ** no two neighbouring blocks carry the same symbol *)
  Fixpoint adj (h : list (blk Z Sym)) : Prop :=
    match h with
    | a :: ((b :: _) as h') => k_sym a <> k_sym b /\ adj h'
    | _ => True
    end.
  Definition tadj (t : ctape Z Sym) : Prop := adj (ct_l t) /\ adj (ct_r t).

  Lemma adj_tail b h : adj (b :: h) -> adj h.
  Proof. destruct h; simpl; tauto. Qed.
  Lemma adj_sym b b' h : k_sym b = k_sym b' -> adj (b :: h) -> adj (b' :: h).
  Proof. intros E. destruct h; simpl; auto. now rewrite E. Qed.

  Lemma pop_one_adj h h' : pop_one zops h = Some h' -> adj h -> adj h'.
  Proof.
    destruct h as [|b h]; simpl; [discriminate|]. intros [= <-] H.
    destruct (k_num b); auto. destruct (_ =? 0); [now apply adj_tail in H|].
    eapply adj_sym; [|exact H]. reflexivity.
  Qed.
  Lemma push_num_adj h a n h' : push_num zops eqb h a n = Some h' -> adj h -> adj h'.
  Proof.
    destruct h as [|b h]; simpl; [discriminate|]. intros [= <-] H.
    destruct (eqb (k_sym b) a) eqn:E.
    - destruct (k_num b); auto.
    - split; auto. simpl. intros E'. subst a.
      assert (eqb (k_sym b) (k_sym b) = true) by now apply eqb_eq. congruence.
  Qed.
  Lemma single_move_adj t a d t' :
    apply_single_move zops eqb t a d = Some t' -> tadj t -> tadj t'.
  Proof.
    unfold apply_single_move. destruct (pop_one zops _) as [h|] eqn:E1; [|discriminate].
    set (t1 := set_half (ct_dir t) h t).
    destruct (push_num zops eqb _ _ _) as [h2|] eqn:E2; [|discriminate].
    intros [= <-] [Hl Hr].
    assert (A1 : tadj t1).
    { unfold t1, half in *. destruct (ct_dir t); split; simpl; auto; eapply pop_one_adj; eauto. }
    destruct A1 as [A1 A2].
    assert (A3 : adj h2) by (eapply push_num_adj; eauto; destruct d; auto).
    destruct d; split; simpl; auto.
  Qed.
  Lemma chain_move_adj t a t' o :
    apply_chain_move zops eqb t a = Some (t', o) -> tadj t -> tadj t'.
  Proof.
    unfold apply_chain_move. destruct (half (ct_dir t) t) as [|b rest] eqn:E1; [discriminate|].
    destruct (k_num b); [|intros [= <- _]; auto].
    set (t1 := set_half (ct_dir t) rest t).
    destruct (push_num zops eqb _ _ _) as [h2|] eqn:E2; [|discriminate].
    intros [= <- _] [Hl Hr].
    assert (A1 : tadj t1).
    { unfold t1, half in *. destruct (ct_dir t); split; simpl; auto;
        eapply adj_tail; rewrite <- E1; auto. }
    destruct A1 as [A1 A2].
    assert (A3 : adj h2) by (eapply push_num_adj; eauto; destruct (opp (ct_dir t1)); auto).
    unfold t1 in *. destruct t as [d l r]; simpl in *. destruct d; simpl in *; split; simpl; auto.
  Qed.
End Tape.
Arguments chain_t {Sym St}.
