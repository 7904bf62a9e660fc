(** * Half tapes as streams, sums over streams, directed configurations *)
Require Import ZArith List Lia Bool Arith.
From Verif Require Import Spec_TM M_Turing_Machine.
Import ListNotations.
Open Scope Z_scope.

Definition scons {A} (a : A) (s : nat -> A) : nat -> A :=
  fun i => match i with O => a | S i => s i end.
Definition stl {A} (s : nat -> A) : nat -> A := fun i => s (S i).
Definition sapp {A} (l : list A) (s : nat -> A) : nat -> A :=
  fun i => match nth_error l i with Some a => a | None => s (i - length l)%nat end.
Definition seqv {A} (s s' : nat -> A) : Prop := forall i, s i = s' i.

Lemma seqv_refl {A} (s : nat -> A) : seqv s s.
Proof. intros i. reflexivity. Qed.
Lemma seqv_sym {A} (s s' : nat -> A) : seqv s s' -> seqv s' s.
Proof. intros H i. now rewrite H. Qed.
Lemma seqv_trans {A} (a b c : nat -> A) : seqv a b -> seqv b c -> seqv a c.
Proof. intros H1 H2 i. now rewrite H1. Qed.
#[export] Hint Resolve seqv_refl : core.

Lemma scons_ext {A} (a : A) s s' : seqv s s' -> seqv (scons a s) (scons a s').
Proof. intros H [|i]; simpl; auto. Qed.
Lemma stl_ext {A} (s s' : nat -> A) : seqv s s' -> seqv (stl s) (stl s').
Proof. intros H i. apply H. Qed.
Lemma sapp_ext {A} (l : list A) s s' : seqv s s' -> seqv (sapp l s) (sapp l s').
Proof. intros H i. unfold sapp. destruct (nth_error l i); auto. Qed.
Lemma sapp_nil {A} (s : nat -> A) : seqv (sapp [] s) s.
Proof. intros i. unfold sapp. destruct i; simpl; auto. Qed.
Lemma sapp_cons {A} (a : A) l s : seqv (sapp (a :: l) s) (scons a (sapp l s)).
Proof. intros [|i]; reflexivity. Qed.
Lemma sapp_app {A} (l l' : list A) s : seqv (sapp (l ++ l') s) (sapp l (sapp l' s)).
Proof.
  induction l as [|a l IH]; simpl.
  - intros i. now rewrite sapp_nil.
  - intros i. rewrite sapp_cons, sapp_cons.
    now apply scons_ext.
Qed.
Lemma scons_stl {A} (s : nat -> A) : seqv (scons (s O) (stl s)) s.
Proof. intros [|i]; reflexivity. Qed.
Lemma stl_scons {A} (a : A) s : seqv (stl (scons a s)) s.
Proof. intros i; reflexivity. Qed.
Lemma sapp_repeat {A} (a : A) n : seqv (sapp (repeat a n) (fun _ => a)) (fun _ => a).
Proof.
  intros i. unfold sapp. destruct (nth_error (repeat a n) i) eqn:E; auto.
  apply nth_error_In in E. now apply repeat_spec in E.
Qed.

(** ** finite sums *)

Definition ssum {A} (f : A -> nat) (s : nat -> A) (n : nat) : Prop :=
  exists N, (forall i, (N <= i)%nat -> f (s i) = 0%nat) /\
            list_sum (map (fun i => f (s i)) (seq 0 N)) = n.

Lemma list_sum_app a b : list_sum (a ++ b) = (list_sum a + list_sum b)%nat.
Proof. induction a; simpl; lia. Qed.

Lemma sum_seq_ext f g n k :
  (forall i, (k <= i < k + n)%nat -> f i = g i) ->
  list_sum (map f (seq k n)) = list_sum (map g (seq k n)).
Proof.
  revert k. induction n as [|n IH]; simpl; intros k H; auto.
  rewrite H by lia. f_equal. apply IH. intros. apply H. lia.
Qed.

Lemma sum_seq_zero f n k :
  (forall i, (k <= i < k + n)%nat -> f i = 0%nat) -> list_sum (map f (seq k n)) = 0%nat.
Proof.
  revert k. induction n as [|n IH]; simpl; intros k H; auto.
  rewrite H by lia. simpl. apply IH. intros. apply H. lia.
Qed.

Lemma ssum_ge {A} (f : A -> nat) s n N :
  (forall i, (N <= i)%nat -> f (s i) = 0%nat) -> ssum f s n ->
  list_sum (map (fun i => f (s i)) (seq 0 N)) = n.
Proof.
  intros H (N' & H' & <-).
  assert (G : forall a b, (a <= b)%nat -> (forall i, (a <= i)%nat -> f (s i) = 0%nat) ->
     list_sum (map (fun i => f (s i)) (seq 0 b)) = list_sum (map (fun i => f (s i)) (seq 0 a))).
  { intros a b Hab Ha. replace b with (a + (b - a))%nat by lia.
    rewrite seq_app, map_app, list_sum_app.
    rewrite (sum_seq_zero _ (b - a)); [lia|]. intros i Hi. apply Ha. lia. }
  destruct (le_lt_dec N N') as [Hl|Hl].
  - symmetry. apply G; auto.
  - apply G; auto; lia.
Qed.

Lemma ssum_fun {A} (f : A -> nat) s n m : ssum f s n -> ssum f s m -> n = m.
Proof.
  intros (N & H & <-) Hm. now apply ssum_ge.
Qed.

Lemma ssum_ext {A} (f : A -> nat) s s' n : seqv s s' -> ssum f s n -> ssum f s' n.
Proof.
  intros E (N & H & <-). exists N. split.
  - intros i Hi. rewrite <- E. auto.
  - apply sum_seq_ext. intros. now rewrite E.
Qed.

Lemma map_seq_S {B} (f : nat -> B) n k : map f (seq (S k) n) = map (fun i => f (S i)) (seq k n).
Proof. revert k. induction n; simpl; intros; f_equal; auto. Qed.

Lemma ssum_scons {A} (f : A -> nat) a s n :
  ssum f (scons a s) n <-> exists m, ssum f s m /\ n = (f a + m)%nat.
Proof.
  split.
  - intros (N & H & <-). destruct N as [|N].
    + exists 0%nat. split.
      * exists 0%nat. split; auto. intros i _. apply (H (S i)). lia.
      * pose proof (H O (Nat.le_refl O)) as H0. simpl in H0. simpl. lia.
    + exists (list_sum (map (fun i => f (s i)) (seq 0 N))). split.
      * exists N. split; auto. intros i Hi. apply (H (S i)). lia.
      * simpl. now rewrite map_seq_S.
  - intros (m & (N & H & <-) & ->). exists (S N). split.
    + intros [|i] Hi; simpl; [lia|]. apply H. lia.
    + simpl. now rewrite map_seq_S.
Qed.

Lemma ssum_sapp {A} (f : A -> nat) l s n :
  ssum f (sapp l s) n <-> exists m, ssum f s m /\ n = (list_sum (map f l) + m)%nat.
Proof.
  revert n. induction l as [|a l IH]; simpl; intros n.
  - split.
    + intros H. exists n. split; auto. eapply ssum_ext; [|exact H]. apply sapp_nil.
    + intros (m & H & ->). eapply ssum_ext; [|exact H]. apply seqv_sym, sapp_nil.
  - split.
    + intros H. apply (ssum_ext f _ _ n (sapp_cons a l s)) in H.
      apply ssum_scons in H. destruct H as (m & H & ->).
      apply IH in H. destruct H as (k & H & ->). exists k. split; auto. lia.
    + intros (m & H & ->). eapply ssum_ext; [apply seqv_sym, sapp_cons|].
      apply ssum_scons. exists (list_sum (map f l) + m)%nat. split; [|lia].
      apply IH. eauto.
Qed.

Lemma ssum_const {A} (f : A -> nat) a : f a = 0%nat -> ssum f (fun _ => a) 0.
Proof. intros H. exists O. split; auto. Qed.

(** ** Directed configurations: the head sits between two half tapes and looks
    into direction [d_dir]. *)
Record dcfg (Sym St : Type) := DCfg {
  d_l : nat -> Sym; d_r : nat -> Sym; d_st : St; d_dir : dir }.
Arguments DCfg {Sym St}. Arguments d_l {Sym St}. Arguments d_r {Sym St}.
Arguments d_st {Sym St}. Arguments d_dir {Sym St}.

Definition deq {Sym St} (c c' : dcfg Sym St) : Prop :=
  seqv (d_l c) (d_l c') /\ seqv (d_r c) (d_r c') /\ d_st c = d_st c' /\ d_dir c = d_dir c'.

Lemma deq_refl {Sym St} (c : dcfg Sym St) : deq c c.
Proof. repeat split; auto. Qed.
Lemma deq_sym {Sym St} (c c' : dcfg Sym St) : deq c c' -> deq c' c.
Proof. intros (?&?&?&?). repeat split; auto using seqv_sym. Qed.
Lemma deq_trans {Sym St} (a b c : dcfg Sym St) : deq a b -> deq b c -> deq a c.
Proof.
  intros (?&?&?&?) (?&?&?&?).
  split; [eapply seqv_trans; eauto|]. split; [eapply seqv_trans; eauto|].
  split; congruence.
Qed.

Definition facing {Sym St} (c : dcfg Sym St) : Sym :=
  match d_dir c with R => d_r c O | L => d_l c O end.

(** effect of replacing the faced symbol, see Tape.py:126-148 *)
Definition apply_t {Sym St} (c : dcfg Sym St) (sym : Sym) (s : St) (d : dir) : dcfg Sym St :=
  let l0 := match d_dir c with L => stl (d_l c) | R => d_l c end in
  let r0 := match d_dir c with R => stl (d_r c) | L => d_r c end in
  match d with
  | R => DCfg (scons sym l0) r0 s R
  | L => DCfg l0 (scons sym r0) s L
  end.

Lemma facing_ext {Sym St} (c c' : dcfg Sym St) : deq c c' -> facing c = facing c'.
Proof.
  intros (H1&H2&H3&H4). unfold facing. rewrite H4. destruct (d_dir c'); auto.
Qed.

Lemma apply_ext {Sym St} (c c' : dcfg Sym St) a s d :
  deq c c' -> deq (apply_t c a s d) (apply_t c' a s d).
Proof.
  intros (H1&H2&H3&H4). unfold apply_t. rewrite H4.
  destruct d, (d_dir c'); repeat split; simpl; auto using scons_ext, stl_ext.
Qed.

(** ** Windows *)

Definition winpos (d : dir) (pos : Z) : nat :=
  Z.to_nat (match d with R => pos | L => pos + 1 end).

Definition win {Sym St} (l : nat -> Sym) (tape : list Sym) (pos : Z) (d : dir) (s : St)
           (r : nat -> Sym) : dcfg Sym St :=
  DCfg (sapp (rev (firstn (winpos d pos) tape)) l)
       (sapp (skipn (winpos d pos) tape) r) s d.

Lemma tget_split {A} (tape : list A) pos a :
  tget tape pos = Some a ->
  exists x y, tape = x ++ a :: y /\ pos = Z.of_nat (length x).
Proof.
  unfold tget. destruct (pos <? 0) eqn:E; [discriminate|].
  intros H. apply nth_error_split in H. destruct H as (x & y & -> & Hl).
  exists x, y. split; auto. apply Z.ltb_ge in E. lia.
Qed.

Lemma lset_app {A} (x y : list A) a v : lset (x ++ a :: y) (length x) v = x ++ v :: y.
Proof. induction x; simpl; congruence. Qed.

Lemma lset_length {A} (l : list A) i v : length (lset l i v) = length l.
Proof. revert i. induction l; destruct i; simpl; auto. Qed.

Lemma firstn_app_len {A} (x y : list A) : firstn (length x) (x ++ y) = x.
Proof. rewrite firstn_app, Nat.sub_diag, firstn_all. simpl. now rewrite app_nil_r. Qed.
Lemma skipn_app_len {A} (x y : list A) : skipn (length x) (x ++ y) = y.
Proof. rewrite skipn_app, Nat.sub_diag, skipn_all. reflexivity. Qed.

Lemma firstn_app_lenS {A} (x y : list A) a : firstn (S (length x)) (x ++ a :: y) = x ++ [a].
Proof.
  replace (x ++ a :: y) with ((x ++ [a]) ++ y) by now rewrite <- app_assoc.
  replace (S (length x)) with (length (x ++ [a])) by (rewrite app_length; simpl; lia).
  apply firstn_app_len.
Qed.
Lemma skipn_app_lenS {A} (x y : list A) a : skipn (S (length x)) (x ++ a :: y) = y.
Proof.
  replace (x ++ a :: y) with ((x ++ [a]) ++ y) by now rewrite <- app_assoc.
  replace (S (length x)) with (length (x ++ [a])) by (rewrite app_length; simpl; lia).
  apply skipn_app_len.
Qed.

Lemma winpos_R n : winpos R (Z.of_nat n) = n.
Proof. unfold winpos. lia. Qed.
Lemma winpos_L n : winpos L (Z.of_nat n) = S n.
Proof. unfold winpos. lia. Qed.
Lemma winpos_Rs n : winpos R (Z.of_nat n + 1) = S n.
Proof. unfold winpos. lia. Qed.
Lemma winpos_Lp n : winpos L (Z.of_nat n + -1) = n.
Proof. unfold winpos. lia. Qed.

Lemma win_facing {Sym St} l (tape : list Sym) pos d (s : St) r a :
  tget tape pos = Some a -> facing (win l tape pos d s r) = a.
Proof.
  intros H. apply tget_split in H. destruct H as (x & y & -> & ->).
  unfold facing, win; simpl. destruct d.
  - rewrite winpos_L, firstn_app_lenS, rev_app_distr. reflexivity.
  - rewrite winpos_R, skipn_app_len. reflexivity.
Qed.

Lemma win_apply {Sym St} l (tape : list Sym) pos d (s : St) r a v s' d' :
  tget tape pos = Some a ->
  deq (apply_t (win l tape pos d s r) v s' d')
      (win l (lset tape (Z.to_nat pos) v) (pos + dz d') d' s' r).
Proof.
  intros H. apply tget_split in H. destruct H as (x & y & -> & ->).
  rewrite Nat2Z.id, lset_app.
  unfold apply_t, win; simpl.
  destruct d'; simpl dz; destruct d; repeat split; simpl;
    rewrite ?winpos_R, ?winpos_L, ?winpos_Rs, ?winpos_Lp,
            ?firstn_app_len, ?skipn_app_len, ?firstn_app_lenS, ?skipn_app_lenS,
            ?rev_app_distr; simpl; auto.
  - apply seqv_sym, sapp_cons.
  - apply seqv_sym, sapp_cons.
  - eapply seqv_trans; [|apply seqv_sym, sapp_cons]. apply scons_ext.
    intros i; reflexivity.
  - apply seqv_sym, sapp_cons.
Qed.
