(** * Integer helpers and modular exponentiation *)
Require Import ZArith Znumtheory Zpow_facts List Lia Bool Arith.
From Verif Require Import M_Math.
Import ListNotations.
Open Scope Z_scope.

(** ** gcd and lcm *)
Lemma gcd_loop_ok fuel : forall a b, 0 <= a -> 0 <= b -> (Z.to_nat b < fuel)%nat ->
  gcd_loop fuel a b = Some (Z.gcd a b).
Proof.
  induction fuel as [|fuel IH]; intros a b Ha Hb F; [lia|]. cbn [gcd_loop].
  destruct (Z.gtb_spec b 0) as [L|L].
  - pose proof (Z.mod_pos_bound a b L). rewrite IH by lia.
    f_equal. rewrite Z.gcd_comm, Z.gcd_mod by lia. apply Z.gcd_comm.
  - replace b with 0 by lia. rewrite Z.gcd_0_r, Z.abs_eq by lia. reflexivity.
Qed.

Lemma gcd_eq a b : gcd a b = Some (Z.gcd a b).
Proof.
  unfold gcd. destruct (Z.gtb_spec (Z.abs b) (Z.abs a)) as [L|L].
  - rewrite gcd_loop_ok by lia. rewrite Z.gcd_abs_l, Z.gcd_abs_r, Z.gcd_comm. reflexivity.
  - rewrite gcd_loop_ok by lia. rewrite Z.gcd_abs_l, Z.gcd_abs_r. reflexivity.
Qed.

Lemma lcm_eq a b : a <> 0 \/ b <> 0 -> lcm a b = Some (a * b / Z.gcd a b) /\ a * b / Z.gcd a b = a * (b / Z.gcd a b).
Proof.
  intros H. unfold lcm. rewrite gcd_eq.
  assert (G : Z.gcd a b <> 0) by (intros E; apply Z.gcd_eq_0 in E; lia).
  destruct (Z.eqb_spec (Z.gcd a b) 0) as [E|_]; [lia|]. split; [reflexivity|].
  apply Z.divide_div_mul_exact; [exact G|]. apply Z.gcd_divide_r.
Qed.

Lemma lcm_div a b : a <> 0 \/ b <> 0 -> exists l, lcm a b = Some l /\ (a | l) /\ (b | l) /\
  (forall m, (a | m) -> (b | m) -> (l | m)).
Proof.
  intros H. destruct (lcm_eq a b H) as [E1 E2]. exists (a * b / Z.gcd a b).
  split; [exact E1|]. rewrite E2.
  assert (G : Z.gcd a b <> 0) by (intros E; apply Z.gcd_eq_0 in E; lia).
  change (a * (b / Z.gcd a b)) with (a * (b / Z.gcd a b)).
  assert (AL : Z.lcm a b = Z.abs (a * (b / Z.gcd a b))) by reflexivity.
  split; [|split].
  - apply Z.divide_abs_r. rewrite <- AL. apply Z.divide_lcm_l.
  - apply Z.divide_abs_r. rewrite <- AL. apply Z.divide_lcm_r.
  - intros m A B. apply Z.divide_abs_l. rewrite <- AL. apply Z.lcm_least; assumption.
Qed.

Lemma lcm_pos a b l : 0 < a -> 0 < b -> lcm a b = Some l -> 0 < l.
Proof.
  intros A B E. destruct (lcm_eq a b ltac:(lia)) as [E1 E2]. rewrite E1 in E.
  assert (l = a * b / Z.gcd a b) by congruence. subst l. rewrite E2.
  pose proof (Z.gcd_nonneg a b).
  assert (G : Z.gcd a b <> 0) by (intros G; apply Z.gcd_eq_0 in G; lia).
  destruct (Z.gcd_divide_r a b) as [q Q].
  rewrite Q at 1. rewrite Z.div_mul by exact G. nia.
Qed.

(** ** int_pow *)
Lemma int_pow_loop_sound fl n count : forall m r k, 1 < m -> int_pow_loop fl n m count = Some (r, k) ->
  r ^ k = n /\ 0 <= k.
Proof.
  induction count as [|c IH]; intros m r k Hm E; cbn [int_pow_loop] in E.
  - assert (r = n /\ k = 1) as [-> ->] by (split; congruence). split; [apply Z.pow_1_r|lia].
  - destruct (fl n m) as [k'|]; [|discriminate].
    destruct ((0 <=? k') && (m ^ k' =? n)) eqn:T.
    + apply andb_true_iff in T as [T1 T2]. apply Z.leb_le in T1. apply Z.eqb_eq in T2.
      assert (r = m /\ k = k') as [-> ->] by (split; congruence). split; assumption.
    + apply IH in E; [exact E|lia].
Qed.

Lemma int_pow_loop_least fl n count : forall m r k,
  (forall m' k', 1 < m' -> 0 <= k' -> m' ^ k' = n -> fl n m' = Some k') ->
  1 < m -> int_pow_loop fl n m count = Some (r, k) ->
  (r = n /\ k = 1 /\ forall m' k', m <= m' < m + Z.of_nat count -> 0 <= k' -> m' ^ k' <> n)
  \/ (m <= r < m + Z.of_nat count /\ forall m' k', m <= m' < r -> 0 <= k' -> m' ^ k' <> n).
Proof.
  induction count as [|c IH]; intros m r k AC Hm E; cbn [int_pow_loop] in E.
  - left. split; [congruence|]. split; [congruence|]. intros. lia.
  - destruct (fl n m) as [k0|] eqn:F; [|discriminate].
    destruct ((0 <=? k0) && (m ^ k0 =? n)) eqn:T.
    + right. assert (r = m) as -> by congruence. split; [lia|]. intros. lia.
    + assert (NM : forall k', 0 <= k' -> m ^ k' <> n).
      { intros k' P Q. pose proof (AC m k' Hm P Q) as X. rewrite F in X.
        assert (k0 = k') as -> by congruence.
        apply andb_false_iff in T as [T|T]; [apply Z.leb_gt in T; lia|].
        apply Z.eqb_neq in T. contradiction. }
      apply (IH (m + 1) r k AC ltac:(lia)) in E.
      destruct E as [(A & B & C)|(A & C)]; [left|right].
      * split; [exact A|]. split; [exact B|]. intros m' k' R P.
        destruct (Z.eq_dec m' m) as [->|N]; [apply NM; exact P|apply C; lia].
      * split; [lia|]. intros m' k' R P.
        destruct (Z.eq_dec m' m) as [->|N]; [apply NM; exact P|apply C; lia].
Qed.

(** ** Primes *)
Definition prod (fs : list (Z * nat)) : Z :=
  fold_right (fun pk acc => fst pk ^ Z.of_nat (snd pk) * acc) 1 fs.

Lemma rel_check p : forallb (fun i => Z.gcd (Z.of_nat i) p =? 1) (seq 1 (Z.to_nat p - 1)) = true ->
  1 < p -> prime p.
Proof.
  intros H P. split; [exact P|]. intros n R. apply Zgcd_1_rel_prime.
  rewrite forallb_forall in H. specialize (H (Z.to_nat n)). rewrite Z2Nat.id in H by lia.
  apply Z.eqb_eq, H, in_seq. lia.
Qed.
Lemma primes_prime p : In p primes -> prime p.
Proof.
  intros I.
  assert (C : forallb (fun p => (1 <? p) && forallb (fun i => Z.gcd (Z.of_nat i) p =? 1) (seq 1 (Z.to_nat p - 1))) primes = true)
    by (vm_compute; reflexivity).
  rewrite forallb_forall in C. specialize (C p I). apply andb_true_iff in C as [A B].
  apply rel_check; [exact B|]. apply Z.ltb_lt. exact A.
Qed.
Lemma primes_all q : prime q -> q <= 97 -> In q primes.
Proof.
  intros P L. pose proof (prime_ge_2 _ P) as G.
  assert (C : forallb (fun i => existsb (Z.eqb (Z.of_nat i)) primes
                || existsb (fun d => Z.of_nat i mod Z.of_nat d =? 0) (seq 2 (i - 2))) (seq 2 96) = true)
    by (vm_compute; reflexivity).
  rewrite forallb_forall in C. specialize (C (Z.to_nat q)).
  assert (I : In (Z.to_nat q) (seq 2 96)) by (apply in_seq; lia).
  specialize (C I). rewrite Z2Nat.id in C by lia.
  apply orb_true_iff in C as [C|C].
  - apply existsb_exists in C as (x & Ix & Ex). apply Z.eqb_eq in Ex. subst x. exact Ix.
  - apply existsb_exists in C as (d & Id & Ed). apply in_seq in Id. apply Z.eqb_eq in Ed.
    apply Z.mod_divide in Ed; [|lia]. destruct (prime_divisors q P _ Ed); lia.
Qed.

Lemma prime_divisor n : 1 < n -> exists q, prime q /\ (q | n).
Proof.
  revert n. apply (well_founded_induction_type (Z.lt_wf 0) (fun n => 1 < n -> exists q, prime q /\ (q | n))).
  intros n IH L. destruct (prime_dec n) as [P|NP].
  - exists n. split; [exact P|apply Z.divide_refl].
  - destruct (not_prime_divide n L NP) as (d & Hd & D).
    destruct (IH d ltac:(lia) ltac:(lia)) as (q & Pq & Dq).
    exists q. split; [exact Pq|]. eapply Z.divide_trans; eassumption.
Qed.

Lemma strip_ok p : 1 < p -> forall fuel n k, 0 < n -> (Z.to_nat n < fuel)%nat ->
  exists j n', strip_prime fuel p n k = Some (k + j, n')%nat /\ n = p ^ Z.of_nat j * n' /\ 0 < n' /\ ~ (p | n').
Proof.
  intros P. induction fuel as [|fuel IH]; intros n k N F; [lia|]. cbn [strip_prime].
  destruct (Z.eqb_spec (n mod p) 0) as [E|E].
  - apply Z.mod_divide in E; [|lia]. destruct E as [q Q].
    assert (0 < q) by nia. assert (q < n) by nia.
    replace (n / p) with q by (rewrite Q, Z.div_mul; lia).
    destruct (IH q (S k) ltac:(lia) ltac:(lia)) as (j & n' & A & B & C & D).
    exists (S j), n'. split; [rewrite A; do 2 f_equal; lia|]. split; [|split; assumption].
    rewrite Nat2Z.inj_succ, Z.pow_succ_r by lia. rewrite Q, B. ring.
  - exists 0%nat, n. split; [rewrite Nat.add_0_r; reflexivity|]. split; [change (p ^ Z.of_nat 0) with 1; lia|]. split; [exact N|].
    intros D. apply E. apply Z.mod_divide; [lia|exact D].
Qed.

Definition increasing (l : list Z) : Prop := forall i j, (i < j < length l)%nat -> nth i l 0 < nth j l 0.
Fixpoint incr (l : list Z) : Prop :=
  match l with [] => True | x :: l => Forall (Z.lt x) l /\ incr l end.
Lemma incr_increasing l : incr l -> increasing l.
Proof.
  induction l as [|x l IH]; intros H i j R; cbn [length] in R; [lia|].
  destruct H as [F S]. destruct j as [|j]; [lia|]. destruct i as [|i].
  - cbn [nth]. rewrite Forall_forall in F. apply F, nth_In. lia.
  - cbn [nth]. apply IH; [exact S|lia].
Qed.

Lemma prime_loop_ok ps : incr ps -> Forall prime ps -> forall n res, 0 < n ->
  match prime_loop ps n res with
  | Some fs => exists fs', fs = res ++ fs' /\ prod fs' = n
      /\ Forall (fun pk => In (fst pk) ps /\ (0 < snd pk)%nat) fs' /\ incr (map fst fs')
  | None => exists q, (ps <> [] \/ n <> 1 -> prime q /\ (q | n) /\ ~ In q ps)
  end.
Proof.
  induction ps as [|p ps IH]; intros SO PR n res N; cbn [prime_loop].
  - destruct (Z.eq_dec n 1) as [->|NE].
    + exists 0. intros [H|H]; contradiction.
    + destruct (prime_divisor n ltac:(lia)) as (q & A & B). exists q. intros _. auto.
  - inversion PR as [|? ? Pp PR']; subst. destruct SO as [F SO].
    pose proof (prime_ge_2 _ Pp) as P2.
    destruct (strip_ok p ltac:(lia) (S (Z.to_nat n)) n 0 N ltac:(lia)) as (j & n' & A & B & C & D).
    rewrite A. cbn [Nat.add].
    set (res' := match j with O => res | _ => res ++ [(p, j)] end).
    assert (RES : res' = res ++ match j with O => [] | _ => [(p, j)] end)
      by (unfold res'; destruct j; [rewrite app_nil_r|]; reflexivity).
    destruct (Z.eqb_spec n' 1) as [->|N1].
    + rewrite RES. eexists. split; [reflexivity|]. destruct j as [|j].
      * split; [change (p ^ Z.of_nat 0) with 1 in B; cbn; lia|]. split; [constructor|exact I].
      * split; [|split].
        -- unfold prod. cbn [fold_right fst snd]. lia.
        -- constructor; [|constructor]. cbn. split; [left; reflexivity|lia].
        -- cbn. auto.
    + specialize (IH SO PR' n' res' C). destruct (prime_loop ps n' res') as [fs|].
      * destruct IH as (fs' & E & Q & G & SS). rewrite E, RES, <- app_assoc.
        eexists. split; [reflexivity|]. destruct j as [|j]; cbn [app].
        -- split; [rewrite Q; change (p ^ Z.of_nat 0) with 1 in B; lia|]. split; [|exact SS].
           eapply Forall_impl; [|exact G]. intros pk [X Y]. split; [right; exact X|exact Y].
        -- split; [|split].
           ++ change (prod ((p, S j) :: fs')) with (p ^ Z.of_nat (S j) * prod fs'). rewrite Q. lia.
           ++ constructor; [cbn; split; [left; reflexivity|lia]|].
              eapply Forall_impl; [|exact G]. intros pk [X Y]. split; [right; exact X|exact Y].
           ++ cbn. split; [|exact SS]. rewrite Forall_map. eapply Forall_impl; [|exact G].
              intros pk [X Y]. rewrite Forall_forall in F. apply F. exact X.
      * destruct IH as (q & H). exists q. intros _. destruct H as (X & Y & Z); [right; exact N1|].
        split; [exact X|]. split; [rewrite B; apply Z.divide_mul_r; exact Y|].
        intros [<-|I]; [contradiction|contradiction].
Qed.

Lemma primes_incr : incr primes.
Proof. cbn. repeat (split; [repeat constructor|]); exact I. Qed.

Lemma prime_factor_ok n : 0 < n ->
  match prime_factor n with
  | Some fs => prod fs = n /\ Forall (fun pk => In (fst pk) primes /\ (0 < snd pk)%nat) fs /\ incr (map fst fs)
  | None => exists q, prime q /\ (q | n) /\ 97 < q
  end.
Proof.
  intros N. unfold prime_factor. destruct (Z.gtb_spec n 0) as [_|]; [|lia].
  assert (PR : Forall prime primes) by (apply Forall_forall, primes_prime).
  pose proof (prime_loop_ok primes primes_incr PR n [] N) as H.
  destruct (prime_loop primes n []) as [fs|].
  - destruct H as (fs' & -> & A & B & C). auto.
  - destruct H as (q & H). destruct H as (A & B & C); [left; discriminate|].
    exists q. split; [exact A|]. split; [exact B|].
    destruct (Z_lt_le_dec 97 q) as [L|L]; [exact L|]. contradict C. apply primes_all; assumption.
Qed.

(** ** Powers modulo prime powers *)
Definition geo (x : Z) (n : nat) : Z := fold_right (fun i acc => x ^ Z.of_nat i + acc) 0 (rev (seq 0 n)).
Lemma geo_S x n : geo x (S n) = x ^ Z.of_nat n + geo x n.
Proof. unfold geo. rewrite seq_S, rev_app_distr. reflexivity. Qed.
Lemma geo_mul x n : (x - 1) * geo x n = x ^ Z.of_nat n - 1.
Proof.
  induction n as [|n IH]; [cbn; lia|].
  rewrite geo_S, Z.mul_add_distr_l, IH, Nat2Z.inj_succ, Z.pow_succ_r by lia. ring.
Qed.
Lemma geo_mod x n : (x - 1 | geo x n - Z.of_nat n).
Proof.
  induction n as [|n IH]; [exists 0; cbn; lia|].
  rewrite geo_S, Nat2Z.inj_succ.
  replace (x ^ Z.of_nat n + geo x n - Z.succ (Z.of_nat n))
    with ((x - 1) * geo x n + (geo x n - Z.of_nat n)) by (rewrite geo_mul; lia).
  apply Z.divide_add_r; [apply Z.divide_factor_l|exact IH].
Qed.

Lemma lift p e x : 1 < p -> (p ^ Z.of_nat (S e) | x - 1) -> (p ^ Z.of_nat (S (S e)) | x ^ p - 1).
Proof.
  intros P D. pose proof (geo_mul x (Z.to_nat p)) as G. rewrite Z2Nat.id in G by lia. rewrite <- G.
  pose proof (geo_mod x (Z.to_nat p)) as GM. rewrite Z2Nat.id in GM by lia.
  assert (DP : (p | x - 1)).
  { eapply Z.divide_trans; [|exact D]. rewrite Nat2Z.inj_succ, Z.pow_succ_r by lia. apply Z.divide_factor_l. }
  assert (DG : (p | geo x (Z.to_nat p))).
  { replace (geo x (Z.to_nat p)) with ((geo x (Z.to_nat p) - p) + p) by lia.
    apply Z.divide_add_r; [|apply Z.divide_refl]. eapply Z.divide_trans; eassumption. }
  destruct D as [u U]. destruct DG as [v V].
  exists (u * v). rewrite V, U, (Nat2Z.inj_succ (S e)), (Z.pow_succ_r p (Z.of_nat (S e))) by lia. ring.
Qed.

Lemma lift_iter p e x j : 1 < p -> (p ^ Z.of_nat (S e) | x - 1) ->
  (p ^ Z.of_nat (S e + j) | x ^ (p ^ Z.of_nat j) - 1).
Proof.
  intros P D. induction j as [|j IH].
  - rewrite Nat.add_0_r. cbn [Z.of_nat]. rewrite Z.pow_0_r, Z.pow_1_r. exact D.
  - replace (S e + S j)%nat with (S (S (e + j))) by lia.
    rewrite (Nat2Z.inj_succ j), Z.pow_succ_r, (Z.mul_comm p), Z.pow_mul_r by (try lia; apply Z.pow_nonneg; lia).
    apply lift; [exact P|]. replace (S (e + j)) with (S e + j)%nat by lia. exact IH.
Qed.

Lemma fermat p b : In p primes -> ~ (p | b) -> (p | b ^ (p - 1) - 1).
Proof.
  intros I ND. pose proof (prime_ge_2 _ (primes_prime p I)) as P2.
  assert (C : forallb (fun p => forallb (fun i => Z.of_nat i ^ (p - 1) mod p =? 1) (seq 1 (Z.to_nat p - 1))) primes = true)
    by (vm_compute; reflexivity).
  rewrite forallb_forall in C. specialize (C p I). rewrite forallb_forall in C.
  pose proof (Z.mod_pos_bound b p ltac:(lia)) as R.
  assert (NZ : b mod p <> 0) by (intros E; apply ND, Z.mod_divide; lia).
  specialize (C (Z.to_nat (b mod p))). rewrite Z2Nat.id in C by lia.
  assert (IS : In (Z.to_nat (b mod p)) (seq 1 (Z.to_nat p - 1))) by (apply in_seq; lia).
  apply C, Z.eqb_eq in IS. apply Z.mod_divide; [lia|].
  rewrite Zminus_mod, Zpower_mod, IS by lia. rewrite (Z.mod_small 1) by lia. reflexivity.
Qed.

Definition lam (p : Z) (k : nat) : Z :=
  if (p =? 2) && (Nat.leb 3 k) then 2 ^ (Z.of_nat k - 2) else (p - 1) * p ^ (Z.of_nat k - 1).
Lemma lam_pos p k : 1 < p -> (0 < k)%nat -> 0 < lam p k.
Proof.
  intros P K. unfold lam. destruct ((p =? 2) && (Nat.leb 3 k)) eqn:E.
  - apply andb_true_iff in E as [_ E]. apply Nat.leb_le in E. apply Z.pow_pos_nonneg; lia.
  - apply Z.mul_pos_pos; [lia|]. apply Z.pow_pos_nonneg; lia.
Qed.

Lemma euler_pk p k b : In p primes -> (0 < k)%nat -> ~ (p | b) -> (p ^ Z.of_nat k | b ^ lam p k - 1).
Proof.
  intros I K ND. pose proof (prime_ge_2 _ (primes_prime p I)) as P2. unfold lam.
  destruct ((p =? 2) && (Nat.leb 3 k)) eqn:E.
  - apply andb_true_iff in E as [E1 E2]. apply Z.eqb_eq in E1. subst p. apply Nat.leb_le in E2.
    destruct k as [|[|[|j]]]; try lia.
    replace (Z.of_nat (S (S (S j))) - 2) with (Z.of_nat (S j)) by lia.
    rewrite (Nat2Z.inj_succ j), Z.pow_succ_r, Z.pow_mul_r by (try lia; apply Z.pow_nonneg; lia).
    replace (S (S (S j))) with (3 + j)%nat by lia. apply lift_iter; [lia|].
    change (2 ^ Z.of_nat 3) with 8.
    apply Z.mod_divide; [lia|].
    pose proof (Z.mod_pos_bound b 8 ltac:(lia)) as R. pose proof (Z.div_mod b 8 ltac:(lia)) as DM.
    rewrite Zminus_mod, Zpower_mod by lia.
    assert (O : b mod 8 mod 2 <> 0).
    { intros E. apply ND. apply Z.mod_divide in E; [|lia]. destruct E as [q Q].
      exists (4 * (b / 8) + q). lia. }
    assert (b mod 8 = 0 \/ b mod 8 = 1 \/ b mod 8 = 2 \/ b mod 8 = 3 \/ b mod 8 = 4 \/ b mod 8 = 5 \/ b mod 8 = 6 \/ b mod 8 = 7) as X by lia.
    destruct X as [X|[X|[X|[X|[X|[X|[X|X]]]]]]]; rewrite X in *; try reflexivity; cbn in O; lia.
  - destruct k as [|j]; [lia|].
    replace (Z.of_nat (S j) - 1) with (Z.of_nat j) by lia.
    rewrite Z.pow_mul_r by (try lia; apply Z.pow_nonneg; lia).
    replace (S j) with (1 + j)%nat by lia. apply lift_iter; [lia|].
    change (Z.of_nat 1) with 1. rewrite Z.pow_1_r. apply fermat; assumption.
Qed.

Lemma pow_dvd d x t : 0 <= t -> (d | x - 1) -> (d | x ^ t - 1).
Proof.
  intros T D. eapply Z.divide_trans; [exact D|].
  pose proof (geo_mul x (Z.to_nat t)) as G. rewrite Z2Nat.id in G by lia. rewrite <- G.
  apply Z.divide_factor_l.
Qed.

Lemma cycle_pk p k b j kp t : In p primes -> (0 < k)%nat -> (lam p k | kp) -> 0 < kp ->
  Z.of_nat k <= j -> 0 <= t -> (p ^ Z.of_nat k | b ^ (j + kp * t) - b ^ j).
Proof.
  intros I K L KP J T. pose proof (prime_ge_2 _ (primes_prime p I)) as P2.
  assert (0 <= kp * t) by (apply Z.mul_nonneg_nonneg; lia).
  rewrite Z.pow_add_r by lia.
  replace (b ^ j * b ^ (kp * t) - b ^ j) with (b ^ j * (b ^ (kp * t) - 1)) by ring.
  destruct (Zdivide_dec p b) as [D|ND].
  - apply Z.divide_mul_l. replace j with (Z.of_nat k + (j - Z.of_nat k)) by lia.
    rewrite Z.pow_add_r by lia. apply Z.divide_mul_l.
    destruct D as [q ->]. rewrite Z.pow_mul_l. apply Z.divide_factor_r.
  - apply Z.divide_mul_r. destruct L as [q ->].
    pose proof (lam_pos p k ltac:(lia) K) as LP. assert (0 < q) by nia.
    replace (q * lam p k * t) with (lam p k * (q * t)) by ring.
    rewrite Z.pow_mul_r by (try lia; apply Z.mul_nonneg_nonneg; lia).
    apply pow_dvd; [apply Z.mul_nonneg_nonneg; lia|]. apply euler_pk; assumption.
Qed.

Lemma prime_rel p q : prime p -> prime q -> p <> q -> rel_prime p q.
Proof.
  intros P Q N. apply prime_rel_prime; [exact P|]. intros D.
  destruct (prime_divisors q Q p D) as [H|[H|[H|H]]]; pose proof (prime_ge_2 _ P); pose proof (prime_ge_2 _ Q); lia.
Qed.
Lemma rel_pow_r a b k : rel_prime a b -> rel_prime a (b ^ Z.of_nat k).
Proof.
  intros R. induction k as [|k IH]; [cbn; apply rel_prime_sym, rel_prime_1|].
  rewrite Nat2Z.inj_succ, Z.pow_succ_r by lia. apply rel_prime_mult; assumption.
Qed.
Lemma rel_mul_dvd a b d : rel_prime a b -> (a | d) -> (b | d) -> (a * b | d).
Proof.
  intros R A [q Q]. subst d.
  assert (D : (a | q)) by (apply Gauss with b; [rewrite Z.mul_comm; exact A|exact R]).
  destruct D as [u ->]. exists u. ring.
Qed.

Lemma prod_dvd fs d : Forall (fun pk => prime (fst pk)) fs -> incr (map fst fs) ->
  Forall (fun pk : Z * nat => (fst pk ^ Z.of_nat (snd pk) | d)) fs -> (prod fs | d).
Proof.
  induction fs as [|[p k] fs IH]; intros P I D; [apply Z.divide_1_l|].
  change (prod ((p, k) :: fs)) with (p ^ Z.of_nat k * prod fs).
  inversion P as [|? ? P1 P2]; subst. inversion D as [|? ? D1 D2]; subst. cbn in P1, D1. destruct I as [I1 I2].
  apply rel_mul_dvd; [|exact D1|apply IH; assumption].
  clear IH D D1 D2 I2 P. induction fs as [|[q j] fs IH]; [apply rel_prime_sym, rel_prime_1|].
  change (prod ((q, j) :: fs)) with (q ^ Z.of_nat j * prod fs).
  inversion P2 as [|? ? Q1 Q2]; subst. inversion I1 as [|? ? J1 J2]; subst. cbn in Q1, J1.
  apply rel_prime_mult.
  - apply rel_pow_r, rel_prime_sym, rel_pow_r. apply prime_rel; [exact Q1|exact P1|lia].
  - apply IH; assumption.
Qed.

Lemma carmichael_loop_ok fs : Forall (fun pk : Z * nat => In (fst pk) primes /\ (0 < snd pk)%nat) fs ->
  forall res mk, 0 < res -> exists r k0, carmichael_loop fs res mk = Some (r, k0) /\ 0 < r /\ (res | r) /\ (mk <= k0)%nat
    /\ Forall (fun pk => (lam (fst pk) (snd pk) | r) /\ (snd pk <= k0)%nat) fs.
Proof.
  induction fs as [|[p k] fs IH]; intros F res mk R; cbn [carmichael_loop].
  - exists res, mk. repeat split; auto; try apply Z.divide_refl; lia.
  - inversion F as [|? ? [F1 F2] F3]; subst. cbn in F1, F2.
    pose proof (prime_ge_2 _ (primes_prime p F1)) as P2.
    fold (lam p k). change (if (p =? 2) && Nat.leb 3 k then 2 ^ (Z.of_nat k - 2) else (p - 1) * p ^ (Z.of_nat k - 1)) with (lam p k).
    pose proof (lam_pos p k ltac:(lia) F2) as LP.
    destruct (lcm_div res (lam p k) ltac:(lia)) as (l & E & A & B & _).
    pose proof (lcm_pos _ _ _ R LP E) as L0. rewrite E.
    destruct (IH F3 l (Nat.max mk k) L0) as (r & k0 & E' & R0 & D & K & G).
    exists r, k0. split; [exact E'|]. split; [exact R0|]. split; [eapply Z.divide_trans; eassumption|].
    split; [lia|]. constructor; [|exact G]. cbn. split; [eapply Z.divide_trans; eassumption|lia].
Qed.

Lemma carmichael_ok n kp k0 : 0 < n -> carmichael n = Some (kp, k0) ->
  0 < kp /\ (1 <= k0)%nat /\ forall b j t, Z.of_nat k0 <= j -> 0 <= t -> (n | b ^ (j + kp * t) - b ^ j).
Proof.
  intros N. unfold carmichael. pose proof (prime_factor_ok n N) as PF.
  destruct (prime_factor n) as [fs|]; [|discriminate]. destruct PF as (P & F & I).
  destruct (carmichael_loop_ok fs F 1 1 ltac:(lia)) as (r & k & E & R & _ & K & G).
  rewrite E. intros E'. assert (r = kp /\ k = k0) as [-> ->] by (split; congruence).
  split; [exact R|]. split; [exact K|]. intros b j t J T. rewrite <- P.
  apply prod_dvd; [|exact I|].
  - eapply Forall_impl; [|exact F]. intros pk [A _]. apply primes_prime, A.
  - rewrite Forall_forall in *. intros [p e] IN. destruct (F _ IN) as [A B]. destruct (G _ IN) as [C D].
    cbn in *. apply cycle_pk; auto; lia.
Qed.

Lemma carmichael_unit n kp k0 b : 0 < n -> carmichael n = Some (kp, k0) -> rel_prime b n -> (n | b ^ kp - 1).
Proof.
  intros N C R. destruct (carmichael_ok n kp k0 N C) as (P & K & H).
  specialize (H b (Z.of_nat k0) 1 ltac:(lia) ltac:(lia)).
  rewrite Z.mul_1_r, Z.pow_add_r in H by lia.
  replace (b ^ Z.of_nat k0 * b ^ kp - b ^ Z.of_nat k0) with (b ^ Z.of_nat k0 * (b ^ kp - 1)) in H by ring.
  apply Gauss in H; [exact H|]. apply rel_pow_r. apply rel_prime_sym. exact R.
Qed.

Lemma exp_mod_ok b k m r : 0 < m -> 0 <= k -> exp_mod b k m = Some r -> r = b ^ k mod m.
Proof.
  intros M K. unfold exp_mod. destruct (carmichael m) as [[kp k0]|] eqn:C; [|discriminate].
  destruct (carmichael_ok m kp k0 M C) as (P & K0 & H).
  destruct (Z.ltb_spec k (Z.of_nat k0)) as [L|L].
  - unfold py_pow. destruct (Z.ltb_spec k 0); [lia|]. congruence.
  - unfold py_pow. pose proof (Z.mod_pos_bound (k - Z.of_nat k0) kp P) as R.
    destruct (Z.ltb_spec ((k - Z.of_nat k0) mod kp + Z.of_nat k0) 0); [lia|]. intros E.
    set (j := (k - Z.of_nat k0) mod kp + Z.of_nat k0) in *.
    assert (X : k = j + kp * ((k - Z.of_nat k0) / kp)).
    { unfold j. pose proof (Z.div_mod (k - Z.of_nat k0) kp ltac:(lia)). lia. }
    assert (0 <= (k - Z.of_nat k0) / kp) by (apply Z.div_pos; lia).
    assert (D : (m | b ^ k - b ^ j)) by (rewrite X; apply H; lia).
    assert (r = b ^ j mod m) as -> by congruence.
    destruct D as [q Q]. replace (b ^ k) with (b ^ j + q * m) by lia.
    rewrite Z.mod_add by lia. reflexivity.
Qed.

Lemma exp_mod_defined b k m : 0 < m -> 0 <= k -> exp_mod b k m = None <-> carmichael m = None.
Proof.
  intros M K. unfold exp_mod. destruct (carmichael m) as [[kp k0]|] eqn:C; [|tauto].
  destruct (carmichael_ok m kp k0 M C) as (P & K0 & H). unfold py_pow.
  pose proof (Z.mod_pos_bound (k - Z.of_nat k0) kp P) as R.
  destruct (Z.ltb_spec k (Z.of_nat k0)); destruct (Z.ltb_spec k 0); try lia; try (split; discriminate).
  destruct (Z.ltb_spec ((k - Z.of_nat k0) mod kp + Z.of_nat k0) 0); [lia|split; discriminate].
Qed.
Lemma carmichael_none n : 0 < n -> carmichael n = None -> prime_factor n = None.
Proof.
  intros N. unfold carmichael. pose proof (prime_factor_ok n N) as PF.
  destruct (prime_factor n) as [fs|]; [|reflexivity]. destruct PF as (P & F & I).
  destruct (carmichael_loop_ok fs F 1 1 ltac:(lia)) as (r & k & E & _). rewrite E. discriminate.
Qed.
