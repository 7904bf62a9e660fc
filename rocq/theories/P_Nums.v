(** * Tapes as a shape and a list of counts; stripped configurations *)
Require Import ZArith List Lia Bool Arith QArith Qround Permutation.
From Verif Require Import Spec_TM M_Turing_Machine P_Stream P_SimLimited
     M_Expr P_Expr M_Tape M_Simulator P_Tape P_Simulator M_Prover P_Lin P_GenSim P_Form P_GenLoop.
Import ListNotations.
Open Scope Z_scope.

Lemma Forall2_rev {A B} (R : A -> B -> Prop) l l' : Forall2 R l l' -> Forall2 R (rev l) (rev l').
Proof.
  induction 1; simpl; [constructor|]. apply Forall2_app; auto.
Qed.
Lemma Forall2_impl {A B} (R S : A -> B -> Prop) l l' :
  (forall a b, R a b -> S a b) -> Forall2 R l l' -> Forall2 S l l'.
Proof. intros H. induction 1; constructor; auto. Qed.
Lemma Forall2_conj {A B} (R S : A -> B -> Prop) l l' :
  Forall2 R l l' -> Forall2 S l l' -> Forall2 (fun a b => R a b /\ S a b) l l'.
Proof. induction 1; intros H'; inversion H'; subst; constructor; auto. Qed.
Lemma Forall2_left {A B} (P : A -> Prop) (R : A -> B -> Prop) l l' :
  Forall P l -> Forall2 R l l' -> Forall2 (fun a b => P a /\ R a b) l l'.
Proof. intros H H'. revert H. induction H'; intros H1; inversion H1; subst; constructor; auto. Qed.
Lemma Forall2_trans {A B C} (R : A -> B -> Prop) (S : B -> C -> Prop) l1 l2 l3 :
  Forall2 R l1 l2 -> Forall2 S l2 l3 -> Forall2 (fun a c => exists b, R a b /\ S b c) l1 l3.
Proof.
  intros H. revert l3. induction H; intros l3 H'; inversion H'; subst; constructor; eauto.
Qed.
Lemma Forall2_flip {A B} (R : A -> B -> Prop) l l' : Forall2 R l l' -> Forall2 (fun b a => R a b) l' l.
Proof. induction 1; constructor; auto. Qed.
Lemma Forall2_in_l {A B} (R : A -> B -> Prop) l l' a : Forall2 R l l' -> In a l -> exists b, In b l' /\ R a b.
Proof.
  induction 1; simpl; [tauto|]. intros [<-|H1]; eauto. destruct IHForall2 as (b & Hb & Hr); eauto.
Qed.
Lemma Forall2_length' {A B} (R : A -> B -> Prop) l l' : Forall2 R l l' -> length l = length l'.
Proof. induction 1; simpl; auto. Qed.

Lemma blks_self {N Sym} (h : list (blk N Sym)) : blks (map k_sym h) (map k_num h) = h.
Proof. induction h as [|[s n] h IH]; simpl; congruence. Qed.
Lemma blks_sym {N Sym} (ss : list Sym) : forall ns : list (option N), length ns = length ss ->
  map k_sym (blks ss ns) = ss.
Proof. induction ss as [|s ss IH]; intros [|n ns]; simpl; intros H; try discriminate; auto. f_equal; auto. Qed.
Lemma blks_num {N Sym} (ss : list Sym) : forall ns : list (option N), length ns = length ss ->
  map k_num (blks ss ns) = ns.
Proof. induction ss as [|s ss IH]; intros [|n ns]; simpl; intros H; try discriminate; auto. f_equal; auto. Qed.

Lemma firstn_exact {A} (l l' : list A) n : n = length l -> firstn n (l ++ l') = l.
Proof. intros ->. rewrite firstn_app, firstn_all, Nat.sub_diag. simpl. now rewrite app_nil_r. Qed.
Lemma skipn_exact {A} (l l' : list A) n : n = length l -> skipn n (l ++ l') = l'.
Proof. intros ->. rewrite skipn_app, skipn_all, Nat.sub_diag. reflexivity. Qed.

Lemma mk_self {N Sym} (t : ctape N Sym) : mk (shape t) (nums t) = t.
Proof.
  destruct t as [d l r]. unfold mk, shape, nums. cbn [ct_dir ct_l ct_r].
  rewrite firstn_exact, skipn_exact by (now rewrite rev_length, !map_length).
  now rewrite !rev_involutive, !blks_self.
Qed.

Definition sh_len {Sym} (sh : dir * list Sym * list Sym) : nat :=
  length (snd (fst sh)) + length (snd sh).
Lemma nums_len {N Sym} (t : ctape N Sym) : length (nums t) = sh_len (shape t).
Proof. unfold nums, sh_len, shape. cbn [fst snd]. now rewrite app_length, !rev_length, !map_length. Qed.
Lemma nums_mk {N Sym} (sh : dir * list Sym * list Sym) (ns : list (option N)) :
  length ns = sh_len sh -> nums (mk sh ns) = ns.
Proof.
  destruct sh as [[d ls] rs]. unfold sh_len; simpl. intros H. unfold nums, mk. cbn [ct_l ct_r].
  rewrite !blks_num.
  - rewrite !rev_involutive. apply firstn_skipn.
  - rewrite rev_length, skipn_length. lia.
  - rewrite rev_length, firstn_length. lia.
Qed.
Lemma shape_mk {N Sym} (sh : dir * list Sym * list Sym) (ns : list (option N)) :
  length ns = sh_len sh -> shape (mk sh ns) = sh.
Proof.
  destruct sh as [[d ls] rs]. unfold sh_len; simpl. intros H. unfold shape, mk. cbn [ct_l ct_r ct_dir].
  rewrite !blks_sym; auto.
  - rewrite rev_length, skipn_length. lia.
  - rewrite rev_length, firstn_length. lia.
Qed.

Definition ez (sg : nat -> Z) (ns : list (option val)) : list (option Z) := map (option_map (zev sg)) ns.
Lemma blks_ez {Sym} sg (ss : list Sym) : forall ns, map (eb sg) (blks ss ns) = blks ss (ez sg ns).
Proof. induction ss as [|s ss IH]; intros [|n ns]; simpl; auto. f_equal; auto. Qed.
Lemma et_mk {Sym} sg (sh : dir * list Sym * list Sym) ns : et sg (mk sh ns) = mk sh (ez sg ns).
Proof.
  destruct sh as [[d ls] rs]. unfold mk, et. cbn [ct_dir ct_l ct_r]. rewrite !blks_ez.
  unfold ez. now rewrite !map_rev, firstn_map, skipn_map.
Qed.
Lemma et_self {Sym} sg (t : ctape val Sym) : et sg t = mk (shape t) (ez sg (nums t)).
Proof. rewrite <- et_mk. now rewrite mk_self. Qed.

(** variables of a tape *)
Lemma tvars_nums {Sym} (t : ctape val Sym) : Permutation (tvars t) (flat_map nvars (nums t)).
Proof.
  unfold tvars, nums, hvars. rewrite flat_map_app.
  assert (G : forall h : list (blk val Sym), flat_map (fun b => nvars (k_num b)) h = flat_map nvars (map k_num h)).
  { induction h as [|b h IH]; simpl; congruence. }
  rewrite !G. apply Permutation_app; apply Permutation_flat_map, Permutation_rev.
Qed.

(** ** half tapes ending in the infinite block *)
Inductive bform {N Sym} (i0 : Sym) : list (blk N Sym) -> Prop :=
| bform_end : bform i0 [Blk i0 None]
| bform_blk s n h : bform i0 h -> bform i0 (Blk s (Some n) :: h).
Definition tbform {N Sym} (i0 : Sym) (t : ctape N Sym) : Prop := bform i0 (ct_l t) /\ bform i0 (ct_r t).

Lemma hwf_bform {Sym} (i0 : Sym) h : hwf i0 h -> bform i0 h.
Proof. induction 1; constructor; auto. Qed.
Lemma hform_bform {Sym} (i0 : Sym) P h : hform i0 P h -> bform i0 h.
Proof. induction 1; constructor; auto. Qed.
Lemma twf_bform {Sym} (i0 : Sym) t : twf i0 t -> tbform i0 t.
Proof. intros [A B]. split; now apply hwf_bform. Qed.
Lemma tform_bform {Sym} (i0 : Sym) P t : tform i0 P t -> tbform i0 t.
Proof. intros [A B]. split; eapply hform_bform; eauto. Qed.

Definition flag {N} (is1 : N -> bool) (o : option N) : option bool := option_map is1 o.
Definition frel {N N'} (is1 : N -> bool) (is1' : N' -> bool) (a : option N) (b : option N') : Prop :=
  match a, b with None, None => True | Some x, Some y => is1 x = is1' y | _, _ => False end.

Lemma removelast_cons {A} (a b : A) l : removelast (a :: b :: l) = a :: removelast (b :: l).
Proof. reflexivity. Qed.
Lemma strip_cons {N Sym} (i0 : Sym) (is1 : N -> bool) s n (h : list (blk N Sym)) : bform i0 h ->
  strip_half is1 (Blk s (Some n) :: h) = (s, is1 n) :: strip_half is1 h.
Proof. intros H. destruct H; reflexivity. Qed.

Lemma strip_half_same {N N' Sym} (i0 : Sym) (is1 : N -> bool) (is1' : N' -> bool) h h' :
  bform i0 h -> bform i0 h' -> strip_half is1 h = strip_half is1' h' ->
  map k_sym h = map k_sym h' /\ Forall2 (frel is1 is1') (map k_num h) (map k_num h').
Proof.
  intros H. revert h'. induction H as [|s n h H IH]; intros h' H'; destruct H' as [|s' n' h' H'].
  - intros _. simpl. split; auto. constructor; [exact I|constructor].
  - rewrite (strip_cons i0) by assumption. discriminate.
  - rewrite (strip_cons i0) by assumption. discriminate.
  - rewrite !(strip_cons i0) by assumption. intros E. injection E as -> E1 E2.
    destruct (IH h' H' E2) as [A B]. simpl. split; [congruence|]. constructor; auto.
Qed.

Lemma strip_same {N N' Sym St} (i0 : Sym) (is1 : N -> bool) (is1' : N' -> bool) (q q' : St) t t' :
  tbform i0 t -> tbform i0 t' -> strip_config is1 q t = strip_config is1' q' t' ->
  q = q' /\ shape t = shape t' /\ Forall2 (frel is1 is1') (nums t) (nums t').
Proof.
  intros [A B] [A' B'] E. unfold strip_config in E. injection E as -> Ed El Er.
  destruct (strip_half_same i0 _ _ _ _ A A' El) as [Sl Nl].
  destruct (strip_half_same i0 _ _ _ _ B B' Er) as [Sr Nr].
  split; auto. split.
  - unfold shape. congruence.
  - unfold nums. apply Forall2_app; now apply Forall2_rev.
Qed.

(** keys are compared by value *)
Section Key.
  Context {Sym St : Type} (M : machine Sym St).
  Hypothesis Hsym : forall a b, m_sym_eqb M a b = true <-> a = b.
  Hypothesis Hst : forall a b, m_st_eqb M a b = true <-> a = b.
  Lemma half_eqb_eq a : forall b, half_eqb M a b = true <-> a = b.
  Proof.
    induction a as [|[s x] a IH]; intros [|[s' y] b]; simpl; try (split; [discriminate|discriminate]).
    - tauto.
    - rewrite !andb_true_iff, Hsym, IH, Bool.eqb_true_iff. split; [intros [[-> ->] ->]; auto|].
      intros E. injection E as -> -> ->. auto.
  Qed.
  Lemma key_eqb_eq (a b : key) : key_eqb M a b = true <-> a = b.
  Proof.
    destruct a as [[[q d] l] r], b as [[[q' d'] l'] r']. unfold key_eqb.
    rewrite !andb_true_iff, Hst, !half_eqb_eq.
    assert (dir_eqb d d' = true <-> d = d') as -> by (destruct d, d'; simpl; split; congruence).
    split; [intros [[[-> ->] ->] ->]; auto|]. intros E. injection E as -> -> -> ->. auto.
  Qed.
End Key.

(** building a tape of a given shape *)
Lemma mk_blks_form {Sym} (i0 : Sym) (P : val -> Prop) (R : option Z -> option val -> Prop) h :
  hwf i0 h -> (forall v, R None v -> v = None) ->
  (forall z o, R (Some z) o -> exists v, o = Some v /\ P v) ->
  forall vs, Forall2 R (map k_num h) vs -> hform i0 P (blks (map k_sym h) vs).
Proof.
  intros H R0 R1. induction H as [|s z h Hz H IH]; simpl; intros vs F.
  - inversion F as [|? o ? vs' E F']; subst. inversion F'; subst. rewrite (R0 _ E). constructor.
  - inversion F as [|? o ? vs' E F']; subst. destruct (R1 _ _ E) as (v & -> & Hv). simpl.
    constructor; auto.
Qed.
Lemma Forall2_split {A B} (R : A -> B -> Prop) a b l : Forall2 R (a ++ b) l ->
  Forall2 R a (firstn (length a) l) /\ Forall2 R b (skipn (length a) l).
Proof.
  revert l. induction a as [|x a IH]; simpl; intros l H; [split; [constructor|auto]|].
  inversion H; subst. simpl. destruct (IH _ H4). split; auto.
Qed.
Lemma mk_form {Sym} (i0 : Sym) (P : val -> Prop) (R : option Z -> option val -> Prop) t :
  twf i0 t -> (forall v, R None v -> v = None) ->
  (forall z o, R (Some z) o -> exists v, o = Some v /\ P v) ->
  forall vs, Forall2 R (nums t) vs -> tform i0 P (mk (shape t) vs).
Proof.
  intros [A B] R0 R1 vs F. unfold nums in F. apply Forall2_split in F.
  rewrite rev_length, map_length in F. destruct F as [F1 F2].
  apply Forall2_rev in F1, F2. rewrite rev_involutive in F1, F2.
  unfold mk, shape. split; cbn [ct_l ct_r]; rewrite map_length; eapply mk_blks_form; eauto.
Qed.
