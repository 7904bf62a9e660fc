(** * Property C59: the random sample of records *)
Require Import ZArith QArith List Lia Bool Arith Permutation Qfield.
From Verif Require Import Spec_Prob M_Turing_Machine P_Stream P_Quint P_IO M_Sample P_Sample.
Import ListNotations.
Open Scope nat_scope.

Section C59.
  Context {A : Type}.
  Variable dec : forall x y : A, {x = y} + {x <> y}.

  Lemma end_good n e (s : @sample_state A) xs : e <> Cut_record -> good_sample n xs s -> supp (at_end n e s) (good_sample n xs).
  Proof.
    intros He G. unfold at_end. destruct s as (num, smp). destruct (length smp <? n); [now apply supp_ret|].
    apply (supp_bind _ _ (fun _ => True)); [apply supp_true|]. intros [|] _; [now apply supp_ret|]. destruct e; try congruence; now apply supp_ret.
  Qed.
  Lemma file_good n e ys : e <> Cut_record -> forall xs (s : @sample_state A), NoDup (xs ++ ys) -> good_sample n xs s ->
    supp (sample_file n ys e s) (good_sample n (xs ++ ys)).
  Proof.
    intros He. induction ys as [|y ys IH]; intros xs s N G; cbn [sample_file].
    - rewrite app_nil_r. now apply end_good.
    - replace (xs ++ y :: ys) with ((xs ++ [y]) ++ ys) in * by now rewrite <- app_assoc.
      pose proof (step1_good n xs y s (NoDup_left _ _ N) G) as Hs. unfold step1 in Hs. destruct s as (num, smp).
      assert (One : forall s' : @sample_state A, supp (ret s') (good_sample n (xs ++ [y])) -> good_sample n (xs ++ [y]) s') by (intros s' X; now inversion X).
      destruct (length smp <? n); [apply IH; auto|].
      assert (Bs : forall b, supp (if b : bool then bind (randrange n) (fun i => ret (S num, lset smp i y)) else ret (S num, smp)) (good_sample n (xs ++ [y]))).
      { unfold random_below, bind in Hs. cbn [flat_map fst snd] in Hs. apply Forall_app in Hs. destruct Hs as (Ht & Hf). apply Forall_app in Hf. destruct Hf as (Hf & _).
        assert (Un : forall q (d : dist (@sample_state A)), Forall (fun qa => good_sample n (xs ++ [y]) (snd qa)) (map (fun rb => (q * fst rb, snd rb)%Q) d) -> supp d (good_sample n (xs ++ [y]))).
        { intros q d X. apply Forall_forall. intros a Ha. rewrite Forall_forall in X. apply (X (q * fst a, snd a)%Q). apply in_map_iff. eauto. }
        intros [|]; [exact (Un _ _ Ht)|exact (Un _ _ Hf)]. }
      apply (supp_bind _ _ (fun _ => True)); [apply supp_true|]. intros [|] _.
      + specialize (Bs true). cbn iota in Bs. apply (supp_bind _ _ (fun i => good_sample n (xs ++ [y]) (S num, lset smp i y))).
        * unfold randrange in *. unfold bind in Bs. revert Bs. generalize (seq 0 n). intros q. induction q as [|i q IHq]; cbn [map flat_map fst snd]; intros X; [constructor|].
          apply Forall_app in X. destruct X as (X1 & X2). constructor; [|now apply IHq]. cbn [snd]. now inversion X1.
        * intros i G'. now apply IH.
      + specialize (Bs false). cbn iota in Bs. apply IH; auto.
  Qed.
  Lemma files_good n files : Forall (fun x => snd x <> Cut_record) files -> forall xs (s : @sample_state A),
    NoDup (xs ++ all_recs files) -> good_sample n xs s -> supp (sample_files n files s) (good_sample n (xs ++ all_recs files)).
  Proof.
    induction 1 as [|(recs, e) files He _ IH]; intros xs s N G; cbn [sample_files].
    - unfold all_recs. cbn. rewrite app_nil_r. now apply supp_ret.
    - unfold all_recs in *. cbn [map concat fst snd] in *. rewrite app_assoc in *.
      eapply supp_bind; [apply (file_good n e recs He xs s); [eapply NoDup_left; exact N|exact G]|]. intros s' G'. now apply IH.
  Qed.

  (** Every outcome: the sample is made of different records of the files, as many as asked for or
      all; and the number printed as the number of records. *)
  Theorem C59_outcomes n shuffle (files : list (list A * file_end)) : Forall (fun x => snd x <> Cut_record) files -> NoDup (all_recs files) ->
    (forall l, Permutation (shuffle l) l) ->
    supp (sample_run n shuffle files) (fun out =>
      fst out = length (all_recs files) + 1 /\ length (snd out) = Nat.min n (length (all_recs files)) /\ NoDup (snd out) /\ incl (snd out) (all_recs files)).
  Proof.
    intros F N Sh. unfold sample_run. eapply supp_bind; [apply (files_good n files F [] (1, []) N (good_start n))|]. cbn [app].
    intros (num, smp) (H1 & H2 & H3). apply supp_ret. cbn [fst snd] in *. split; [lia|]. rewrite (Permutation_length (Sh smp)).
    assert (G : length smp = Nat.min n (length (all_recs files)) /\ NoDup smp /\ incl smp (all_recs files)).
    { destruct (le_lt_dec n (length (all_recs files))) as [X|X].
      - destruct (H3 X) as (Y1 & Y2 & Y3). split; [lia|auto].
      - rewrite H2 by lia. split; [lia|]. split; [exact N|apply incl_refl]. }
    destruct G as (G1 & G2 & G3). split; [exact G1|]. split; [eapply Permutation_NoDup; [apply Permutation_sym, Sh|exact G2]|].
    intros x Hx. apply G3. eapply Permutation_in; [apply Sh|exact Hx].
  Qed.

  (** the outcomes have probabilities that add up to 1 *)
  Theorem C59_total n (shuffle : list A -> list A) files : Forall (fun x => snd x <> Cut_record) files ->
    (expect (sample_run n shuffle files) (fun _ => 1) == 1)%Q.
  Proof.
    intros F. unfold sample_run. rewrite expect_bind. rewrite (expect_ext' _ _ (fun _ => 1%Q)).
    - rewrite (files_steps n (fun _ => 1%Q) files F). apply total_steps.
    - intros s. apply (expect_ret (fst s, shuffle (snd s)) (fun _ => 1%Q)).
  Qed.

  (** Every set of k records is in the sample with the same probability
      n (n-1) ... (n-k+1) / (N (N-1) ... (N-k+1)), for every k up to the size of the sample. *)
  Theorem C59_uniform n shuffle (files : list (list A * file_end)) l : Forall (fun x => snd x <> Cut_record) files -> NoDup (all_recs files) ->
    (forall l, Permutation (shuffle l) l) -> n <= length (all_recs files) ->
    NoDup l -> incl l (all_recs files) -> length l <= n ->
    (prob (sample_run n shuffle files) (fun out => contains dec l (snd out)) == falling n (length l) / falling (length (all_recs files)) (length l))%Q.
  Proof.
    intros F N Sh Hn Nl Il Ll. rewrite <- (chance_uniform dec n _ N Hn l Nl Il Ll). unfold prob, sample_run, chance.
    rewrite expect_bind, <- (files_steps n _ files F). apply expect_ext'. intros s.
    pose proof (expect_ret (fst s, shuffle (snd s)) (fun a => if contains dec l (snd a) then 1 else 0)%Q) as E. cbn [snd] in E. rewrite E.
    replace (contains dec l (snd s)) with (contains dec l (shuffle (snd s))); [reflexivity|].
    apply eq_true_iff_eq. rewrite !contains_incl. unfold incl. split; intros H x Hx.
    - eapply Permutation_in; [apply Sh|auto].
    - eapply Permutation_in; [apply Permutation_sym, Sh|auto].
  Qed.

  (** one record *)
  Corollary C59_each n shuffle files r : Forall (fun x => snd x <> Cut_record) files -> NoDup (all_recs files) ->
    (forall l, Permutation (shuffle l) l) -> 0 < n <= length (all_recs files) -> In r (all_recs files) ->
    (prob (sample_run n shuffle files) (fun out => if in_dec dec r (snd out) then true else false) == Qn n / Qn (length (all_recs files)))%Q.
  Proof.
    intros F N Sh (H0 & Hn) Hr. pose proof (C59_uniform n shuffle files [r] F N Sh Hn) as E.
    assert (Z : ~ (Qn (length (all_recs files)) == 0)%Q) by (apply Qn_nz; lia).
    cbn [length falling] in E. transitivity (Qn n * 1 / (Qn (length (all_recs files)) * 1))%Q; [|field; exact Z].
    rewrite <- E; [| |intros x [<-|[]]; exact Hr|lia].
    - unfold prob. apply expect_ext'. intros s. unfold contains. cbn [forallb]. unfold mem. destruct (in_dec dec r (snd s)); reflexivity.
    - constructor; [intros []|constructor].
  Qed.
  (** the whole sample: every set of n records is as likely as every other *)
  Corollary C59_sets n shuffle files l l' : Forall (fun x => snd x <> Cut_record) files -> NoDup (all_recs files) ->
    (forall l, Permutation (shuffle l) l) -> n <= length (all_recs files) ->
    NoDup l -> incl l (all_recs files) -> length l = n -> NoDup l' -> incl l' (all_recs files) -> length l' = n ->
    (prob (sample_run n shuffle files) (fun out => contains dec l (snd out)) == prob (sample_run n shuffle files) (fun out => contains dec l' (snd out)))%Q.
  Proof.
    intros F N Sh Hn N1 I1 L1 N2 I2 L2. rewrite (C59_uniform n shuffle files l), (C59_uniform n shuffle files l') by (auto; lia). rewrite L1, L2. reflexivity.
  Qed.
  (** if there are no more records than asked for, all are taken *)
  Theorem C59_few n shuffle (files : list (list A * file_end)) : Forall (fun x => snd x <> Cut_record) files -> NoDup (all_recs files) ->
    (forall l, Permutation (shuffle l) l) -> length (all_recs files) <= n ->
    supp (sample_run n shuffle files) (fun out => Permutation (snd out) (all_recs files)).
  Proof.
    intros F N Sh Hn. unfold sample_run. eapply supp_bind; [apply (files_good n files F [] (1, []) N (good_start n))|]. cbn [app].
    intros (num, smp) (H1 & H2 & H3). apply supp_ret. cbn [fst snd] in *. rewrite H2 by lia. apply Sh.
  Qed.
End C59.

(** "Scanned ... total records" is one more than the number of records. *)
Theorem C59_count_refuted : forall (n : nat) (recs : list nat), NoDup recs ->
  supp (sample_run n (fun l => l) [(recs, Clean)]) (fun out => fst out = length recs + 1).
Proof.
  intros n recs N. pose proof (C59_outcomes n (fun l => l) [(recs, Clean)]) as H. unfold all_recs in H. cbn [map concat fst] in H. rewrite app_nil_r in H.
  eapply Forall_impl; [|apply H]; cbn beta.
  - intros a (E & _). exact E.
  - repeat constructor. discriminate.
  - exact N.
  - auto.
Qed.
(** A file that ends in the middle of a record is counted one too many if that record happens to be
    skipped: of two complete records, one in such a file and one in the next file, the first is
    sampled with probability 7/12 and the second with 5/12. *)
Theorem C59_truncated_refuted :
  let d := sample_run 1 (fun l => l) [([10], Cut_record); ([20], Clean)] in
  (prob d (fun out => if in_dec Nat.eq_dec 10%nat (snd out) then true else false) == 7 # 12)%Q /\
  (prob d (fun out => if in_dec Nat.eq_dec 20%nat (snd out) then true else false) == 5 # 12)%Q.
Proof. split; vm_compute; reflexivity. Qed.

(** two of five records in two files, the pair 1, 4: probability 1/10 *)
Example C59_case :
  let files := [([1; 2; 3], Clean); ([4; 5], Cut_length)] in
  (prob (sample_run 2%nat (fun l => rev l) files) (fun out => contains Nat.eq_dec [1; 4]%nat (snd out)) == 1 # 10)%Q /\
  Forall (fun x : list nat * file_end => snd x <> Cut_record) files /\ NoDup (all_recs files) /\ (forall l : list nat, Permutation (rev l) l) /\
  2 <= length (all_recs files) /\ incl [1; 4] (all_recs files).
Proof.
  cbv zeta. split; [vm_compute; reflexivity|]. split; [repeat constructor; discriminate|]. split; [|split; [|split]].
  - unfold all_recs. cbn. repeat constructor; cbn; intuition discriminate.
  - intros l. apply Permutation_sym, Permutation_rev.
  - unfold all_recs. cbn. lia.
  - unfold all_recs. cbn. intros x [<-|[<-|[]]]; cbn; auto.
Qed.

Print Assumptions C59_outcomes.
Print Assumptions C59_total.
Print Assumptions C59_uniform.
Print Assumptions C59_each.
Print Assumptions C59_sets.
Print Assumptions C59_few.
Print Assumptions C59_count_refuted.
Print Assumptions C59_truncated_refuted.
