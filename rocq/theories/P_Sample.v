(** * Proofs about the random sample *)
Require Import ZArith QArith List Lia Bool Arith Permutation Qfield.
From Verif Require Import Spec_Prob M_Turing_Machine P_Stream P_SimLimited P_Quint P_IO M_Sample.
Import ListNotations.
Open Scope Q_scope.

(** ** Expectations *)
Lemma expect_ret {A} (a : A) f : expect (ret a) f == f a.
Proof. unfold expect, ret. cbn [fold_right fst snd]. ring. Qed.
Lemma expect_cons {A} q (a : A) d f : expect ((q, a) :: d) f = q * f a + expect d f.
Proof. reflexivity. Qed.
Lemma expect_nil {A} f : expect (@nil (Q * A)) f = 0.
Proof. reflexivity. Qed.
Lemma expect_app {A} (d e : dist A) f : expect (d ++ e) f == expect d f + expect e f.
Proof. induction d as [|(q, a) d IH]; cbn [app]; [rewrite expect_nil; ring|]. rewrite !expect_cons, IH. ring. Qed.
Lemma expect_scale {A} q (d : dist A) f : expect (map (fun rb => (q * fst rb, snd rb)) d) f == q * expect d f.
Proof. induction d as [|(r, a) d IH]; cbn [map fst snd]; [rewrite expect_nil; ring|]. rewrite !expect_cons, IH. ring. Qed.
Lemma expect_bind {A B} (d : dist A) (k : A -> dist B) f : expect (bind d k) f == expect d (fun a => expect (k a) f).
Proof.
  induction d as [|(q, a) d IH]; unfold bind; cbn [flat_map fst snd]; [reflexivity|]. fold (bind d k).
  now rewrite expect_app, expect_cons, IH, expect_scale.
Qed.
Definition supp {A} (d : dist A) (P : A -> Prop) : Prop := Forall (fun qa => P (snd qa)) d.
Lemma expect_ext {A} (d : dist A) f g P : supp d P -> (forall a, P a -> f a == g a) -> expect d f == expect d g.
Proof. intros H E. induction H as [|(q, a) d Ha _ IH]; [reflexivity|]. now rewrite !expect_cons, IH, (E a Ha). Qed.
Lemma supp_true {A} (d : dist A) : supp d (fun _ => True).
Proof. apply Forall_forall. auto. Qed.
Lemma expect_ext' {A} (d : dist A) f g : (forall a, f a == g a) -> expect d f == expect d g.
Proof. intros H. apply (expect_ext d f g (fun _ => True)); auto using supp_true. Qed.
Lemma expect_mult {A} (d : dist A) f q : expect d (fun a => q * f a) == q * expect d f.
Proof. induction d as [|(r, a) d IH]; [rewrite !expect_nil; ring|]. rewrite !expect_cons, IH. ring. Qed.
Lemma supp_bind {A B} (d : dist A) (k : A -> dist B) P R : supp d P -> (forall a, P a -> supp (k a) R) -> supp (bind d k) R.
Proof.
  intros H Hk. induction H as [|(q, a) d Ha _ IH]; [constructor|]. unfold bind. cbn [flat_map]. apply Forall_app. split; [|exact IH].
  specialize (Hk a Ha). cbn [fst snd]. clear - Hk. induction Hk as [|(r, b) l Hb _ IH]; cbn [map]; constructor; auto.
Qed.
Lemma supp_ret {A} (a : A) (P : A -> Prop) : P a -> supp (ret a) P.
Proof. intros H. constructor; auto. Qed.

Lemma Qn_S k : Qn (S k) == Qn k + 1.
Proof. unfold Qn. rewrite Nat2Z.inj_succ, <- Z.add_1_r, inject_Z_plus. reflexivity. Qed.
Lemma Qn_add a b : Qn (a + b) == Qn a + Qn b.
Proof. unfold Qn. rewrite Nat2Z.inj_add, inject_Z_plus. reflexivity. Qed.
Lemma Qn_sub a b : (b <= a)%nat -> Qn (a - b) == Qn a - Qn b.
Proof. intros H. unfold Qn. rewrite Nat2Z.inj_sub by auto. unfold Zminus. rewrite inject_Z_plus, inject_Z_opp. reflexivity. Qed.
Lemma Qn_nz k : (0 < k)%nat -> ~ Qn k == 0.
Proof. intros H E. unfold Qn, Qeq in E. cbn in E. lia. Qed.
Lemma Qn_pos k : (0 < k)%nat -> 0 < Qn k.
Proof. intros H. unfold Qn, Qlt. cbn. lia. Qed.

Definition ind (b : bool) : Q := if b then 1 else 0.
(** the sum of a Boolean function over 0, ..., n-1 *)
Lemma expect_range n f : expect (randrange n) (fun i => ind (f i)) == / Qn n * Qn (length (filter f (seq 0 n))).
Proof.
  unfold randrange. generalize (/ Qn n). intros q. induction (seq 0 n) as [|i l IH]; cbn [map filter length].
  - rewrite expect_nil. change (Qn 0) with 0. ring.
  - rewrite expect_cons, IH. destruct (f i); cbn [ind length].
    + rewrite Qn_S. ring.
    + ring.
Qed.

(** ** Falling factorials *)
Open Scope nat_scope.
Lemma falling_pos j : forall n, j <= n -> (0 < falling n j)%Q.
Proof.
  induction j as [|j IH]; intros n H; cbn [falling]; [reflexivity|].
  apply Qmult_lt_0_compat; [apply Qn_pos; lia|apply IH; lia].
Qed.
Lemma falling_nz j n : j <= n -> ~ (falling n j == 0)%Q.
Proof. intros H E. pose proof (falling_pos j n H) as P. rewrite E in P. now apply Qlt_irrefl in P. Qed.
Lemma falling_up j : forall t, j <= S t -> (falling (S t) j * Qn (S t - j) == Qn (S t) * falling t j)%Q.
Proof.
  induction j as [|j IH]; intros t H.
  - cbn [falling]. rewrite Nat.sub_0_r. ring.
  - cbn [falling]. replace (S t - 1) with t by lia. replace (S t - S j) with (t - j) by lia. destruct t as [|t].
    + assert (j = 0) by lia. subst j. cbn [falling]. change (0 - 0) with 0. change (Qn 0) with 0%Q. ring.
    + replace (S t - 1) with t by lia. rewrite <- Qmult_assoc, IH by lia. ring.
Qed.

Section Uniform.
  Context {A : Type}.
  Variable dec : forall x y : A, {x = y} + {x <> y}.
  Variable n : nat.

  Definition mem (x : A) (l : list A) : bool := if in_dec dec x l then true else false.
  (** all of [l] is in the sample *)
  Definition contains (l : list A) (smp : list A) : bool := forallb (fun x => mem x smp) l.
  Lemma mem_In x l : mem x l = true <-> In x l.
  Proof. unfold mem. destruct (in_dec dec x l); split; auto; discriminate. Qed.
  Lemma contains_incl l smp : contains l smp = true <-> incl l smp.
  Proof. unfold contains. rewrite forallb_forall. unfold incl. split; intros H x Hx; apply mem_In; auto. Qed.

  (** ** One record at a time *)
  Definition step1 (r : A) (s : @sample_state A) : dist (@sample_state A) :=
    let '(num, smp) := s in
    if Nat.ltb (length smp) n then ret (S num, smp ++ [r])
    else bind (random_below (Qn n / Qn num)) (fun b =>
           if b : bool then bind (randrange n) (fun i => ret (S num, lset smp i r)) else ret (S num, smp)).
  Fixpoint all_steps (recs : list A) (s : @sample_state A) : dist (@sample_state A) :=
    match recs with [] => ret s | r :: recs => bind (step1 r s) (all_steps recs) end.

  Lemma at_end_ret e (s : @sample_state A) f : e <> Cut_record -> (expect (at_end n e s) f == f s)%Q.
  Proof.
    intros He. unfold at_end. destruct s as (num, smp). destruct (Nat.ltb (length smp) n); [apply expect_ret|].
    rewrite expect_bind. unfold random_below. rewrite !expect_cons, expect_nil. destruct e; try congruence; rewrite !expect_ret; ring.
  Qed.
  Lemma step1_unfold r (s : @sample_state A) (k : @sample_state A -> Q) : (expect (step1 r s) k ==
    let '(num, smp) := s in
    if Nat.ltb (length smp) n then k (S num, (smp ++ [r])%list)
    else Qn n / Qn num * expect (randrange n) (fun i => k (S num, lset smp i r)) + (1 - Qn n / Qn num) * k (S num, smp))%Q.
  Proof.
    unfold step1. destruct s as (num, smp). destruct (Nat.ltb (length smp) n); [apply expect_ret|].
    rewrite expect_bind. unfold random_below. rewrite !expect_cons, expect_nil. rewrite expect_bind, expect_ret.
    rewrite (expect_ext' (randrange n) _ (fun i => k (S num, lset smp i r))) by (intros; apply expect_ret). ring.
  Qed.
  Lemma file_steps e f : e <> Cut_record -> forall recs (s : @sample_state A), (expect (sample_file n recs e s) f == expect (all_steps recs s) f)%Q.
  Proof.
    intros He. induction recs as [|r recs IH]; intros s; cbn [sample_file all_steps].
    - rewrite at_end_ret by auto. now rewrite expect_ret.
    - rewrite expect_bind, step1_unfold. destruct s as (num, smp). destruct (Nat.ltb (length smp) n); [apply IH|].
      rewrite expect_bind. unfold random_below. rewrite !expect_cons, expect_nil. rewrite expect_bind, IH.
      rewrite (expect_ext' (randrange n) _ (fun i => expect (all_steps recs (S num, lset smp i r)) f)) by (intros; apply IH). ring.
  Qed.
  Lemma steps_app f xs : forall ys s, (expect (all_steps (xs ++ ys) s) f == expect (all_steps xs s) (fun s => expect (all_steps ys s) f))%Q.
  Proof.
    induction xs as [|x xs IH]; intros ys s; cbn [app all_steps]; [now rewrite expect_ret|].
    rewrite !expect_bind. apply expect_ext'. intros s'. apply IH.
  Qed.
  Lemma steps_one r s f : (expect (all_steps [r] s) f == expect (step1 r s) f)%Q.
  Proof. cbn [all_steps]. rewrite expect_bind. apply expect_ext'. intros s'. apply expect_ret. Qed.
  Definition all_recs (files : list (list A * file_end)) : list A := concat (map fst files).
  Lemma files_steps f files : Forall (fun x => snd x <> Cut_record) files -> forall s,
    (expect (sample_files n files s) f == expect (all_steps (all_recs files) s) f)%Q.
  Proof.
    induction 1 as [|(recs, e) files He _ IH]; intros s; cbn [sample_files]; [reflexivity|]. cbn [snd] in He.
    unfold all_recs in *. cbn [map concat fst]. rewrite expect_bind, steps_app, (file_steps e) by exact He.
    apply expect_ext'. intros s'. apply IH.
  Qed.

  (** probabilities add up to 1 *)
  Lemma total_step1 r s : (expect (step1 r s) (fun _ => 1) == 1)%Q.
  Proof.
    rewrite step1_unfold. destruct s as (num, smp). destruct (Nat.ltb (length smp) n); [reflexivity|].
    rewrite (expect_range n (fun _ => true)). replace (filter (fun _ => true) (seq 0 n)) with (seq 0 n).
    2:{ generalize (seq 0 n). intros l. induction l as [|x l IH]; cbn; congruence. }
    rewrite seq_length. destruct (Nat.eq_dec n 0) as [E|E].
    - rewrite E. change (Qn 0) with 0%Q. unfold Qdiv. ring.
    - assert (NZ := Qn_nz n ltac:(lia)). rewrite (Qmult_comm (/ Qn n)), Qmult_inv_r by exact NZ. ring.
  Qed.
  Lemma total_steps xs : forall s, (expect (all_steps xs s) (fun _ => 1) == 1)%Q.
  Proof.
    induction xs as [|x xs IH]; intros s; cbn [all_steps]; [apply (expect_ret s (fun _ => 1%Q))|]. rewrite expect_bind.
    rewrite (expect_ext' _ _ (fun _ => 1%Q)) by (intros; apply IH). apply total_step1.
  Qed.

  (** ** What the sample can be *)
  Definition good_sample (xs : list A) (s : @sample_state A) : Prop :=
    fst s = S (length xs) /\
    (length xs <= n -> snd s = xs) /\ (n <= length xs -> length (snd s) = n /\ NoDup (snd s) /\ incl (snd s) xs).

  Lemma In_lset_iff (l : list A) i v x : NoDup l -> i < length l -> ~ In v l ->
    In x (lset l i v) <-> x = v \/ (In x l /\ nth_error l i <> Some x).
  Proof.
    revert i. induction l as [|a l IH]; intros [|i] N Hi Hv; cbn in *; try lia.
    - inversion N; subst. split; intros [H|H]; auto; [right; split; auto; intros [= ->]; auto|]. destruct H as ([-> |H] & Hn); [congruence|auto].
    - inversion N as [|? ? Ha N']; subst. rewrite IH by (auto; lia). split.
      + intros [<-|[-> |(H & Hn)]]; auto. right. split; auto. intros E. apply nth_error_In in E. auto.
      + intros [-> |([-> |H] & Hn)]; auto.
  Qed.
  Lemma NoDup_lset (l : list A) i v : NoDup l -> ~ In v l -> NoDup (lset l i v).
  Proof.
    revert i. induction l as [|a l IH]; intros [|i] N Hv; cbn in *; auto; inversion N; subst; constructor; auto.
    intros H. apply In_lset in H. destruct H as [-> |H]; auto.
  Qed.

  Lemma step1_good xs r s : NoDup (xs ++ [r]) -> good_sample xs s -> supp (step1 r s) (good_sample (xs ++ [r])).
  Proof.
    intros N (H1 & H2 & H3). destruct s as (num, smp). cbn [fst snd] in *. unfold step1. subst num.
    assert (L : length (xs ++ [r]) = S (length xs)) by (rewrite app_length; cbn; lia).
    assert (Hr : ~ In r xs) by (apply NoDup_remove_2 in N; rewrite app_nil_r in N; exact N).
    destruct (Nat.ltb_spec (length smp) n) as [Hl|Hl].
    - assert (Hx : length xs < n).
      { destruct (le_lt_dec n (length xs)) as [X|X]; auto. destruct (H3 X) as (Y & _). lia. }
      rewrite H2 in * by lia. apply supp_ret. split; cbn [fst snd]; [lia|]. split; auto. intros Hn.
      split; [lia|]. split; [exact N|apply incl_refl].
    - assert (Hx : n <= length xs).
      { destruct (le_lt_dec n (length xs)) as [X|X]; auto. rewrite H2 in Hl by lia. lia. }
      destruct (H3 Hx) as (E1 & E2 & E3). apply (supp_bind _ _ (fun _ => True)); [apply supp_true|]. intros [|] _.
      + apply (supp_bind _ _ (fun _ => True)); [apply supp_true|]. intros i _. apply supp_ret. split; cbn [fst snd]; [lia|]. split; [lia|].
        intros _. split; [now rewrite lset_length|]. split; [apply NoDup_lset; auto|].
        intros x Hin. apply in_app_iff. apply In_lset in Hin. destruct Hin as [-> |Hin]; [right; now left|left; auto].
      + apply supp_ret. split; cbn [fst snd]; [lia|]. split; [lia|]. intros _. split; auto. split; auto.
        intros x Hin. apply in_app_iff. left. auto.
  Qed.
  Lemma good_start : good_sample [] (1, []).
  Proof. split; [reflexivity|]. split; auto. cbn. intros H. split; [lia|]. split; [constructor|apply incl_refl]. Qed.
  Lemma steps_good ys : forall xs s, NoDup (xs ++ ys) -> good_sample xs s -> supp (all_steps ys s) (good_sample (xs ++ ys)).
  Proof.
    induction ys as [|y ys IH]; intros xs s N G; cbn [all_steps].
    - rewrite app_nil_r. now apply supp_ret.
    - replace (xs ++ y :: ys) with ((xs ++ [y]) ++ ys) in * by now rewrite <- app_assoc.
      eapply supp_bind; [apply step1_good; [|exact G]|].
      + clear - N. revert N. generalize (xs ++ [y]). intros l N. induction l; cbn in *; [constructor|].
        inversion N; subst. constructor; auto. intros X. apply H1, in_app_iff. auto.
      + intros s' G'. now apply IH.
  Qed.

  (** ** Counting *)
  Lemma filter_seq_nth (d : A) (f : A -> bool) l : length (filter (fun i => f (nth i l d)) (seq 0 (length l))) = length (filter f l).
  Proof.
    induction l as [|a l IH]; [reflexivity|]. cbn [length seq filter]. change (nth 0 (a :: l) d) with a.
    assert (E : length (filter (fun i => f (nth i (a :: l) d)) (seq 1 (length l))) = length (filter f l)).
    { rewrite <- IH. rewrite <- seq_shift. clear. induction (seq 0 (length l)) as [|i r IH]; [reflexivity|]. cbn [map filter]. change (nth (S i) (a :: l) d) with (nth i l d).
      destruct (f (nth i l d)); cbn [length]; congruence. }
    destruct (f a); cbn [length]; congruence.
  Qed.
  Lemma filter_neg_length (f : A -> bool) l : length (filter (fun x => negb (f x)) l) = length l - length (filter f l).
  Proof.
    assert (E : length (filter (fun x => negb (f x)) l) + length (filter f l) = length l).
    { induction l as [|a l IH]; [reflexivity|]. cbn. destruct (f a); cbn; lia. }
    lia.
  Qed.
  Lemma filter_mem_length l smp : NoDup l -> NoDup smp -> incl l smp -> length (filter (fun x => mem x l) smp) = length l.
  Proof.
    intros N1 N2 I. apply Permutation_length, NoDup_Permutation; auto using NoDup_filter.
    intros x. rewrite filter_In, mem_In. split; [tauto|auto].
  Qed.

  (** the positions that can be overwritten without losing a record of [l] *)
  Lemma count_kept l smp r : NoDup l -> NoDup smp -> length smp = n -> ~ In r smp -> ~ In r l ->
    length (filter (fun i => contains l (lset smp i r)) (seq 0 n)) = if contains l smp then n - length l else 0.
  Proof.
    intros N1 N2 Hn Hr Hl. destruct (contains l smp) eqn:C.
    - rewrite contains_incl in C. rewrite <- (filter_mem_length l smp N1 N2 C), <- Hn, <- filter_neg_length.
      rewrite <- (filter_seq_nth r). f_equal. apply filter_ext_in. intros i Hi. apply in_seq in Hi.
      apply eq_true_iff_eq. rewrite contains_incl, negb_true_iff. split.
      + intros I. destruct (mem (nth i smp r) l) eqn:M; auto. apply mem_In in M. specialize (I _ M).
        apply In_lset_iff in I; auto; [|lia]. destruct I as [E|(_ & E)]; [rewrite E in M; contradiction|].
        exfalso. apply E. apply nth_error_nth'. lia.
      + intros M x Hx. apply In_lset_iff; auto; [lia|]. right. split; auto. intros E. rewrite (nth_error_nth _ _ r E) in M.
        apply mem_In in Hx. congruence.
    - rewrite (filter_ext_in _ (fun _ => false)).
      + generalize (seq 0 n). intros q. induction q; auto.
      + intros i Hi. apply in_seq in Hi. destruct (contains l (lset smp i r)) eqn:D; auto. rewrite contains_incl in D.
        assert (X : incl l smp).
        { intros x Hx. specialize (D x Hx). apply In_lset in D. destruct D as [-> |D]; [contradiction|exact D]. }
        apply contains_incl in X. congruence.
  Qed.
  Lemma count_new l smp r : NoDup l -> NoDup smp -> length smp = n -> ~ In r smp -> ~ In r l ->
    length (filter (fun i => contains (r :: l) (lset smp i r)) (seq 0 n)) = if contains l smp then n - length l else 0.
  Proof.
    intros N1 N2 Hn Hr Hl. rewrite <- (count_kept l smp r) by auto. f_equal. apply filter_ext_in. intros i Hi. apply in_seq in Hi.
    unfold contains at 1. cbn [forallb]. fold (contains l (lset smp i r)). replace (mem r (lset smp i r)) with true; [reflexivity|].
    symmetry. apply mem_In, In_lset_iff; auto. lia.
  Qed.

  (** ** Every set of records is in the sample with the right probability *)
  Definition chance (xs l : list A) : Q := expect (all_steps xs (1, [])) (fun s => ind (contains l (snd s))).

  Lemma NoDup_left (xs ys : list A) : NoDup (xs ++ ys) -> NoDup xs.
  Proof. induction xs; cbn; intros N; [constructor|]. inversion N; subst. constructor; auto. intros X. apply H1, in_app_iff. auto. Qed.

  (** the step for a list without the new record, and with it *)
  Lemma chance_old xs r l : NoDup (xs ++ [r]) -> n <= length xs -> NoDup l -> length l <= n -> ~ In r l ->
    (Qn (S (length xs)) * chance (xs ++ [r]) l == Qn (S (length xs) - length l) * chance xs l)%Q.
  Proof.
    intros N Hn Nl Ll Hr. unfold chance. rewrite steps_app.
    assert (Hrx : ~ In r xs) by (apply NoDup_remove_2 in N; rewrite app_nil_r in N; exact N).
    rewrite <- !expect_mult. eapply expect_ext; [apply (steps_good xs [] (1, []) (NoDup_left _ _ N) good_start)|].
    cbn [app]. intros (num, smp) (H1 & H2 & H3). cbn [fst snd] in *. subst num. destruct (H3 Hn) as (E1 & E2 & E3).
    rewrite steps_one, step1_unfold. replace (length smp <? n) with false by (symmetry; apply Nat.ltb_ge; lia). cbn [snd].
    rewrite expect_range, count_kept by (auto; intros X; apply Hrx, E3, X).
    rewrite Qn_sub by lia. assert (NZ : ~ (Qn (S (length xs)) == 0)%Q) by (apply Qn_nz; lia).
    destruct (contains l smp); cbn [ind].
    - rewrite Qn_sub by lia. destruct (Nat.eq_dec n 0) as [E0|E0].
      + assert (length l = 0) by lia. rewrite E0, H. change (Qn 0) with 0%Q. unfold Qdiv. ring.
      + assert (NZ' : ~ (Qn n == 0)%Q) by (apply Qn_nz; lia). field. auto.
    - change (Qn 0) with 0%Q. ring.
  Qed.
  Lemma chance_new xs r l : NoDup (xs ++ [r]) -> n <= length xs -> NoDup l -> S (length l) <= n -> ~ In r l ->
    (Qn (S (length xs)) * chance (xs ++ [r]) (r :: l) == Qn (n - length l) * chance xs l)%Q.
  Proof.
    intros N Hn Nl Ll Hr. unfold chance. rewrite steps_app.
    assert (Hrx : ~ In r xs) by (apply NoDup_remove_2 in N; rewrite app_nil_r in N; exact N).
    rewrite <- !expect_mult. eapply expect_ext; [apply (steps_good xs [] (1, []) (NoDup_left _ _ N) good_start)|].
    cbn [app]. intros (num, smp) (H1 & H2 & H3). cbn [fst snd] in *. subst num. destruct (H3 Hn) as (E1 & E2 & E3).
    rewrite steps_one, step1_unfold. replace (length smp <? n) with false by (symmetry; apply Nat.ltb_ge; lia). cbn [snd].
    assert (Hrs : ~ In r smp) by (intros X; apply Hrx, E3, X).
    rewrite expect_range, count_new by auto.
    replace (contains (r :: l) smp) with false.
    2:{ symmetry. unfold contains. cbn [forallb]. destruct (mem r smp) eqn:M; auto. apply mem_In in M. contradiction. }
    assert (NZ : ~ (Qn (S (length xs)) == 0)%Q) by (apply Qn_nz; lia). assert (NZ' : ~ (Qn n == 0)%Q) by (apply Qn_nz; lia).
    destruct (contains l smp); cbn [ind].
    - field. auto.
    - change (Qn 0) with 0%Q. ring.
  Qed.

  Lemma chance_perm xs l l' : Permutation l l' -> (chance xs l == chance xs l')%Q.
  Proof.
    intros P. unfold chance. apply expect_ext'. intros s. replace (contains l' (snd s)) with (contains l (snd s)); [reflexivity|].
    apply eq_true_iff_eq. rewrite !contains_incl. unfold incl. split; intros H x Hx; apply H.
    - eapply Permutation_in; [apply Permutation_sym; exact P|exact Hx].
    - eapply Permutation_in; eauto.
  Qed.

  Theorem chance_uniform xs : NoDup xs -> n <= length xs -> forall l, NoDup l -> incl l xs -> length l <= n ->
    (chance xs l == falling n (length l) / falling (length xs) (length l))%Q.
  Proof.
    induction xs as [|r xs IH] using rev_ind; intros N Hn l Nl Il Ll.
    - cbn in Hn. assert (l = []) by (destruct l as [|x l]; auto; destruct (Il x); now left). subst l.
      unfold chance. cbn [all_steps]. rewrite expect_ret. cbn. reflexivity.
    - assert (L : length (xs ++ [r]) = S (length xs)) by (rewrite app_length; cbn; lia).
      destruct (Nat.eq_dec n (length (xs ++ [r]))) as [En|En].
      { (* all records are taken *)
        rewrite <- En. assert (NZ := falling_nz (length l) n Ll).
        transitivity 1%Q; [|field; exact NZ]. unfold chance.
        rewrite (expect_ext _ _ (fun _ => 1%Q) _ (steps_good (xs ++ [r]) [] (1, []) N good_start)).
        - (* total probability *) apply total_steps.
        - cbn [app]. intros s (_ & H & _). rewrite H by lia. apply contains_incl in Il. now rewrite Il. }
      assert (Hn' : n <= length xs) by lia.
      assert (NZ : ~ (Qn (S (length xs)) == 0)%Q) by (apply Qn_nz; lia).
      assert (Hrx : ~ In r xs) by (apply NoDup_remove_2 in N; rewrite app_nil_r in N; exact N).
      assert (N' := NoDup_left _ _ N).
      destruct (in_dec dec r l) as [Hin|Hin].
      + destruct (in_split _ _ Hin) as (l1 & l2 & ->). assert (P : Permutation (l1 ++ r :: l2) (r :: l1 ++ l2)) by (symmetry; apply Permutation_middle).
        pose proof (NoDup_remove_1 _ _ _ Nl) as Nl'. pose proof (NoDup_remove_2 _ _ _ Nl) as Hr'.
        rewrite (Permutation_length P) in *. cbn [length] in *. rewrite (chance_perm _ _ _ P).
        assert (Il' : incl (l1 ++ l2) xs).
        { intros x Hx. specialize (Il x). rewrite in_app_iff in Il. cbn in Il. rewrite in_app_iff in Il.
          apply in_app_iff in Hx as Hx'. destruct Il as [I|[I|[]]]; [tauto|exact I|subst x; contradiction]. }
        pose proof (chance_new xs r (l1 ++ l2) N Hn' Nl' Ll Hr') as E.
        rewrite (IH N' Hn' (l1 ++ l2) Nl' Il') in E by lia.
        rewrite L. cbn [falling]. replace (S (length xs) - 1) with (length xs) by lia.
        assert (NZ1 := falling_nz (length (l1 ++ l2)) (length xs) ltac:(lia)).
        assert (F : (falling n (S (length (l1 ++ l2))) == falling n (length (l1 ++ l2)) * Qn (n - length (l1 ++ l2)))%Q).
        { destruct n as [|n0]; [lia|]. rewrite falling_up by lia. cbn [falling]. replace (S n0 - 1) with n0 by lia. reflexivity. }
        cbn [falling] in F. rewrite F. apply (Qmult_inj_l _ _ (Qn (S (length xs))) NZ). rewrite E. field. auto.
      + assert (Il' : incl l xs).
        { intros x Hx. specialize (Il x Hx). apply in_app_iff in Il. destruct Il as [I|[I|[]]]; [exact I|subst x; contradiction]. }
        pose proof (chance_old xs r l N Hn' Nl Ll Hin) as E. rewrite (IH N' Hn' l Nl Il' Ll) in E. rewrite L.
        assert (NZ1 := falling_nz (length l) (length xs) ltac:(lia)). assert (NZ2 := falling_nz (length l) (S (length xs)) ltac:(lia)).
        apply (Qmult_inj_l _ _ (Qn (S (length xs))) NZ). rewrite E.
        pose proof (falling_up (length l) (length xs) ltac:(lia)) as F.
        apply (Qmult_inj_l _ _ (falling (S (length xs)) (length l)) NZ2).
        transitivity (falling n (length l) * (falling (S (length xs)) (length l) * Qn (S (length xs) - length l)) / falling (length xs) (length l))%Q; [field; auto|].
        rewrite F. field. auto.
  Qed.
End Uniform.
