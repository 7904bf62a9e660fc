(** * C23, C24: formula integers (Exp_Int.py) *)
Require Import ZArith List Lia Bool QArith Qabs.
From Verif Require Import M_Math M_ExpInt Spec_ExpInt P_ExpInt P_ExpInt2 P_ExpInt3.
Import ListNotations.
Open Scope Z_scope.

(** ** Sample floating point functions, for the concrete cases *)
Definition to_Q (a : top_of Q) : Q := match a with TI z => inject_Z z | TF q => q end.
(* about log10 n.  The exponent 200 is written as a recursion on n so that lg does not unfold if n is not given. *)
Fixpoint two_hundred (p : positive) : Z := match p with xH => 200 | xO p | xI p => two_hundred p end.
Definition lg (n : Z) : Q := ((Z.log2 (n ^ two_hundred (Z.to_pos n)) # 200) * (30103 # 100000))%Q.
Definition log_exact (n m : Z) : option Z :=
  match find (fun k => m ^ Z.of_nat k =? n) (seq 0 (S (Z.to_nat (Z.log2 n)))) with Some k => Some (Z.of_nat k) | None => Some 0 end.
Definition sample : floats := {|
  flt := Q;
  fl_sqrt := fun n => if n <? 0 then None else Some (Z.sqrt n);
  fl_log := log_exact;
  fl_cmp := fun a b => (to_Q a ?= to_Q b)%Q;
  fl_ge0 := fun q => Qle_bool 0 q;
  fl_term := fun e b c => Some (TF (Qabs (inject_Z e * lg b + lg (Z.abs c)))%Q);
  fl_denom := fun a d => Some (TF (to_Q a - lg d)%Q) |}.

Lemma sample_accurate : accurate sample.
Proof.
  split; cbn [fl_sqrt fl_log sample].
  - intros n H. destruct (Z.ltb_spec n 0); [reflexivity|lia].
  - intros n s H. destruct (Z.ltb_spec n 0); [lia|]. intros [= <-]. pose proof (Z.sqrt_spec n H). pose proof (Z.sqrt_nonneg n). unfold Z.succ in *. lia.
  - intros m k Hm Hk. unfold log_exact.
    assert (KL : k <= Z.log2 (m ^ k)) by (apply Z.log2_le_pow2; [apply Z.pow_pos_nonneg; lia|apply Z.pow_le_mono_l; lia]).
    destruct (find _ _) as [j|] eqn:F.
    + apply find_some in F as [_ F]. apply Z.eqb_eq in F. f_equal. apply (Z.pow_inj_r m); lia.
    + exfalso. eapply find_none in F; [apply Z.eqb_neq in F; apply F|].
      * rewrite Z2Nat.id; [reflexivity|exact Hk].
      * apply in_seq. lia.
Qed.

Definition get {fl} (x : option (num fl)) : num fl := match x with Some x => x | None => Int 0 end.
Definition get_e {fl} (x : num fl) : expint fl := match x with Exp x => x | Int _ => EI [] 0 1 2 0 (O, TI 0) 0 end.

Definition is_exp {fl} (x : num fl) : bool := match x with Exp _ => true | Int _ => false end.
Lemma got {fl} (o : option (num fl)) : (if o then true else false) = true -> o = Some (get o).
Proof. now destruct o. Qed.
Lemma got_e {fl} (x : num fl) v : is_exp x = true -> built fl x v -> built fl (Exp (get_e x)) v.
Proof. now destruct x. Qed.

(* [got] above, after unfolding the name of the number *)
Ltac got := match goal with
            | |- _ = Some (get _) => apply got; vm_compute; reflexivity
            | |- _ = Some ?x => is_evar x; apply got; vm_compute; reflexivity
            | |- _ = Some ?x => unfold x; apply got; vm_compute; reflexivity
            end.

(** ** C23 *)

(** Powers, sums, differences, products, negatives and exact quotients: whatever the floating point values
    are, the number that results denotes the right integer, and is that integer whenever it is evaluated. *)
Theorem C23_values :
  forall fl, accurate fl -> forall x v, built fl x v ->
    value x = v /\ forall z, try_eval x = Some (Some z) -> z = v.
Proof.
  intros fl acc x v H. destruct (built_good fl acc x v H) as ((W & _) & V). split; auto. intros z E. rewrite <- V. now apply try_eval_ok.
Qed.

(** (2^4000 + 3) * 5 - 1 and its half *)
Definition p4000 : num sample := get (exp_int 30 2 (Int 4000)).
Definition ex_sum : num sample := get (sub 30 (get (mul 30 (get (add 30 p4000 (Int 3))) (Int 5))) (Int 1)).
Definition ex_half : num sample := get (truediv 30 (get_e ex_sum) (Int 2)).
Example C23_values_case : accurate sample /\ built sample ex_half (((2 ^ 4000 + 3) * 5 - 1) / 2) /\ try_eval ex_half = Some None.
Proof.
  split; [exact sample_accurate|]. split; [|vm_compute; reflexivity].
  assert (B : built sample ex_sum ((2 ^ 4000 + 3) * 5 - 1)).
  { apply (b_sub _ 30 (get (mul 30 (get (add 30 p4000 (Int 3))) (Int 5))) (Int 1)); [|apply b_int|got].
    apply (b_mul _ 30 (get (add 30 p4000 (Int 3))) (Int 5)); [|apply b_int|got].
    apply (b_add _ 30 p4000 (Int 3)); [|apply b_int|got].
    apply (b_pow _ 30 2 (Int 4000)); [apply b_int|lia|got]. }
  apply (b_div _ 30 (get_e ex_sum) (Int 2) ex_half _ 2); [|apply b_int|got].
  replace (((2 ^ 4000 + 3) * 5 - 1) / 2 * 2) with ((2 ^ 4000 + 3) * 5 - 1) by (vm_compute; reflexivity). apply got_e; [vm_compute; reflexivity|exact B].
Qed.

(** Remainders: right if the exponents that are formulas and are not evaluated exactly are at least the
    binary logarithm of the modulus.  (No condition if all exponents are integers.) *)
Theorem C23_remainder_partial :
  forall fl, accurate fl -> forall fuel x y u m r, built fl (Exp x) u -> built fl y m -> large_e m x ->
    mod_num fuel x y = Some r -> m <> 0 /\ r = u mod m.
Proof.
  intros fl acc fuel x y u m r Hx Hy L. destruct (built_good fl acc _ _ Hx) as ((Wx & Nx) & Vx). destruct (built_good fl acc _ _ Hy) as ((Wy & _) & Vy).
  unfold mod_num. destruct (try_eval y) as [[k|]|] eqn:E; try discriminate. pose proof (try_eval_ok _ y k Wy E) as Vk. rewrite Vy in Vk. subst k. intros Em. split.
  - intros ->. destruct fuel; discriminate.
  - change (value_e x = u) in Vx. rewrite <- Vx. eapply mod_int_ok; [exact (acc_neg fl acc)|exact Wx| |exact Em]. apply sized_normal_e; auto.
Qed.

(** 2^(3^2000 + 1) modulo 360 *)
Definition ex_tower : num sample := get (exp_int 30 2 (get (add 30 (get (exp_int 30 3 (Int 2000))) (Int 1)))).
Example C23_remainder_case :
  built sample ex_tower (2 ^ (3 ^ 2000 + 1)) /\ large_e 360 (get_e ex_tower) /\ mod_num 30 (get_e ex_tower) (Int 360) = Some 304.
Proof.
  split; [|split].
  - apply (b_pow _ 30 2 (get (add 30 (get (exp_int 30 3 (Int 2000))) (Int 1)))); [|vm_compute; discriminate|got].
    apply (b_add _ 30 (get (exp_int 30 3 (Int 2000))) (Int 1)); [|apply b_int|got].
    apply (b_pow _ 30 3 (Int 2000)); [apply b_int|lia|got].
  - vm_compute. repeat split; discriminate.
  - vm_compute. reflexivity.
Qed.

(** Floor division, on the same condition. *)
Theorem C23_floor_division_partial :
  forall fl, accurate fl -> forall fuel x y u m z, built fl (Exp x) u -> built fl y m -> large_e m x ->
    floordiv fuel x y = Some z -> m <> 0 /\ value z = u / m /\ forall k, try_eval z = Some (Some k) -> k = u / m.
Proof.
  intros fl acc fuel x y u m z Hx Hy L. unfold floordiv. destruct (mod_num fuel x y) as [r|] eqn:Er; [|discriminate].
  destruct (C23_remainder_partial fl acc fuel x y u m r Hx Hy L Er) as (M0 & ->).
  destruct (sub fuel (Exp x) (Int (u mod m))) as [[|w]|] eqn:Es; try discriminate. intros Ed.
  assert (Bw : built fl (Exp w) (u / m * m)).
  { replace (u / m * m) with (u - u mod m) by (pose proof (Z.div_mod u m M0); lia). eapply b_sub; [exact Hx|apply b_int|exact Es]. }
  assert (Bz : built fl z (u / m)) by (eapply b_div; eauto). destruct (C23_values fl acc z _ Bz) as (V1 & V2). auto.
Qed.
Example C23_floor_division_case :
  exists z, floordiv 30 (get_e ex_tower) (Int 360) = Some z /\ large_e 360 (get_e ex_tower).
Proof. eexists. split; [got|]. vm_compute. repeat split; discriminate. Qed.

(** Without that condition the remainder can be wrong: k = 2^4000 - (2^4000 - 1) is 1 but looks large, and
    2^k % 8 is 0. *)
Definition fake_one : num sample := get (sub 30 p4000 (Int (2 ^ 4000 - 1))).
Definition two_to_fake : num sample := get (exp_int 30 2 fake_one).
Theorem C23_remainder_refuted :
  exists fl x u, accurate fl /\ built fl (Exp x) u /\ u mod 8 = 2 /\ mod_num 30 x (Int 8) = Some 0.
Proof.
  exists sample, (get_e two_to_fake), (2 ^ 1). split; [exact sample_accurate|]. split; [apply got_e; [vm_compute; reflexivity|]|split; [reflexivity|vm_compute; reflexivity]].
  apply (b_pow _ 30 2 fake_one); [|lia|got].
  replace 1 with (2 ^ 4000 - (2 ^ 4000 - 1)) by lia. apply (b_sub _ 30 p4000 (Int (2 ^ 4000 - 1))); [|apply b_int|got].
  apply (b_pow _ 30 2 (Int 4000)); [apply b_int|lia|got].
Qed.

(** A formula cannot be divided by a negative integer, even if the quotient is exact: the sign of the
    denominator is lost in the computation of the common divisor. *)
Theorem C23_negative_divisor_refuted :
  forall fl fuel x u k, accurate fl -> built fl (Exp x) u -> k < 0 -> truediv fuel x (Int k) = None.
Proof.
  intros fl fuel x u k acc B Hk. destruct (built_good fl acc _ _ B) as ((W & _) & _). change (wf_e x) in W. apply wf_e_eq in W. destruct W as (Ne & D & _).
  unfold truediv. cbn [try_eval]. destruct (Z.eqb_spec k 0); [reflexivity|]. unfold wrap. destruct fuel as [|fuel]; [reflexivity|]. rewrite mk_expint_S.
  destruct (e_terms x) as [|t0 ts0] eqn:Et; [reflexivity|]. rewrite <- Et in *. clear Et. rewrite P_Math.gcd_eq. cbv zeta. rewrite common_loop_ok.
  set (g := Z.abs (Z.gcd (e_const x) (e_denom x * k)) * Z.sgn (e_denom x * k)).
  assert (Dk : e_denom x * k < 0) by nia. destruct (Z.eqb_spec g 1) as [G|G].
  - unfold g in G. rewrite Z.sgn_neg in G by auto. lia.
  - destruct (fold_gcd fl (e_terms x) g Ne) as (F & _). set (m := fold_left _ _ g) in *.
    destruct (Z.eqb_spec m 1) as [M|M].
    + destruct (Z.ltb_spec 0 (e_denom x * k)); [lia|reflexivity].
    + destruct (Z.eqb_spec m 0) as [M0|M0]; [reflexivity|]. destruct (omap _ (e_terms x)); [|reflexivity].
      assert (e_denom x * k / m < 0) by (apply Z.div_lt_upper_bound; lia). destruct (Z.ltb_spec 0 (e_denom x * k / m)); [lia|reflexivity].
Qed.

(** A power of 1 is never built: the normalisation does not end. *)
Theorem C23_power_of_one_refuted :
  forall fl fuel n, fl_sqrt fl 1 = Some 1 -> n <> 0 -> exp_int (fl := fl) fuel 1 (Int n) = None.
Proof.
  intros fl fuel n S1 Hn.
  assert (X : forall f g c (e : num fl), norm_loop f g 1 c e = None).
  { intros f. induction g as [|g IH]; intros c e; [reflexivity|]. cbn [norm_loop]. rewrite Z.mod_1_r. change (1 =? 0) with false. change (0 =? 0) with true. cbv iota. destruct (f e); auto. }
  assert (T : mk_term (fl := fl) fuel 1 1 (Int n) = None).
  { destruct fuel as [|fuel]; [reflexivity|]. rewrite mk_term_S. change (1 =? 0) with false. unfold int_pow. rewrite S1. cbv iota.
    change (int_pow_loop (fl_log fl) 1 2 (Z.to_nat (1 + 1 - 2))) with (Some (1, 1)). cbv iota. change (1 <? 1) with false. cbv iota zeta. now rewrite X. }
  unfold exp_int. destruct n; [lia| |]; now rewrite T.
Qed.

(** ** C24 *)

(** Comparisons of numbers that are evaluated exactly are right. *)
Theorem C24_small_partial :
  forall fl, accurate fl -> forall n fuel x y u v, built fl (Exp x) u -> built fl y v ->
    (exists a, try_eval (Exp x) = Some (Some a)) -> (exists b, try_eval y = Some (Some b)) ->
    (forall r, gt (S (S n)) fuel x y = Some r -> (r = true <-> u > v)) /\
    (forall r, ge (S (S n)) fuel x y = Some r -> (r = true <-> u >= v)) /\
    (forall r, lt (S (S n)) fuel x y = Some r -> (r = true <-> u < v)) /\
    (forall r, le (S (S n)) fuel x y = Some r -> (r = true <-> u <= v)).
Proof.
  intros fl acc n fuel x y u v Hx Hy (a & Ea) (b & Eb). destruct (built_good fl acc _ _ Hx) as (Gx & _). destruct (built_good fl acc _ _ Hy) as (Gy & _).
  destruct (C23_values fl acc _ _ Hx) as (_ & Va). destruct (C23_values fl acc _ _ Hy) as (_ & Vb). rewrite <- (Va a Ea), <- (Vb b Eb).
  destruct (cmp_small fl acc n fuel x y a b Gx Gy Ea Eb) as (Hg & He). unfold lt, le. repeat split; intros.
  1-4: match goal with H : _ = Some ?r |- _ => first [apply Hg in H|apply He in H] end; subst.
  all: try (match goal with H : (_ <? _) = true |- _ => apply Z.ltb_lt in H end; lia).
  all: try (match goal with H : (_ <=? _) = true |- _ => apply Z.leb_le in H end; lia).
  all: try (apply Z.ltb_lt; lia). all: try (apply Z.leb_le; lia).
  all: destruct (ge (S (S n)) fuel x y) as [q|]; destruct (gt (S (S n)) fuel x y) as [q'|]; try discriminate;
    try (specialize (He _ eq_refl)); try (specialize (Hg _ eq_refl)); subst;
    match goal with H : option_map _ _ = Some _ |- _ => cbn in H; injection H as H end; subst.
  all: try (match goal with H : negb _ = true |- _ => apply negb_true_iff in H end).
  all: try (match goal with H : (_ <? _) = false |- _ => apply Z.ltb_ge in H end; lia).
  all: try (match goal with H : (_ <=? _) = false |- _ => apply Z.leb_gt in H end; lia).
  all: apply negb_true_iff; try (apply Z.ltb_ge; lia); try (apply Z.leb_gt; lia).
Qed.

(** and comparisons with a nonnegative first operand do not fail *)
Theorem C24_small_defined :
  forall fl, accurate fl -> forall n fuel x y u v, built fl (Exp x) u -> built fl y v ->
    (exists a, try_eval (Exp x) = Some (Some a)) -> (exists b, try_eval y = Some (Some b)) -> 0 <= u ->
    exists r s, gt (S n) fuel x y = Some r /\ ge (S n) fuel x y = Some s.
Proof.
  intros fl acc n fuel x y u v Hx Hy (a & Ea) (b & Eb) Hu. destruct (built_good fl acc _ _ Hx) as ((Wx & _) & _). destruct (built_good fl acc _ _ Hy) as ((Wy & _) & _).
  destruct (C23_values fl acc _ _ Hx) as (_ & Va). rewrite <- (Va a Ea) in Hu. destruct (cmp_pos fl n fuel x y a b Wx Wy Ea Eb Hu) as (-> & ->). eauto.
Qed.

(** -(2^900) and 3 - 2^900 *)
Definition ex_neg : num sample := get (neg 30 (get (exp_int 30 2 (Int 900)))).
Definition ex_neg3 : num sample := get (add 30 ex_neg (Int 3)).
Example C24_small_case : built sample ex_neg (- 2 ^ 900) /\ built sample ex_neg3 (- 2 ^ 900 + 3) /\
  (exists a, try_eval ex_neg = Some (Some a)) /\ (exists b, try_eval ex_neg3 = Some (Some b)) /\
  gt 2 30 (get_e ex_neg) ex_neg3 = Some false /\ lt 2 30 (get_e ex_neg) ex_neg3 = Some true.
Proof.
  assert (B : built sample ex_neg (- 2 ^ 900)).
  { apply (b_neg _ 30 (get (exp_int 30 2 (Int 900)))); [|got]. apply (b_pow _ 30 2 (Int 900)); [apply b_int|lia|got]. }
  split; [exact B|]. split; [apply (b_add _ 30 ex_neg (Int 3)); [exact B|apply b_int|got]|].
  split; [eexists; vm_compute; reflexivity|]. split; [eexists; vm_compute; reflexivity|]. split; vm_compute; reflexivity.
Qed.

(** A formula that is not evaluated and is counted as positive compares as greater than every integer. *)
Theorem C24_large_against_int :
  forall fl n fuel x z, try_eval (Exp x : num fl) = Some None -> 0 <= e_sign x ->
    gt (S n) fuel x (Int z) = Some true /\ ge (S n) fuel x (Int z) = Some true.
Proof.
  intros fl n fuel x z E Hs. cbn [try_eval] in E. unfold try_eval_attr in E. destruct (top_ge0 _); [|discriminate].
  cbn [gt ge]. destruct (Z.ltb_spec (e_sign x) 0); [lia|]. destruct (sign _ <? 0); [auto|]. unfold tower_gt, tower_ge, tower_cmp.
  destruct (e_tower x) as [[|h] q]; [destruct q; discriminate|]. cbn. auto.
Qed.
Example C24_large_case : try_eval (Exp (get_e p4000)) = Some None /\ 0 <= e_sign (get_e p4000).
Proof. vm_compute. split; [reflexivity|discriminate]. Qed.

(** So comparisons of larger formulas are not those of the integers.  2^1000 > 10^400 is True. *)
Definition p1000 : num sample := get (exp_int 30 2 (Int 1000)).
Theorem C24_large_int_refuted :
  exists fl x u v, accurate fl /\ built fl (Exp x) u /\ u < v /\ gt 2 30 x (Int v) = Some true.
Proof.
  exists sample, (get_e p1000), (2 ^ 1000), (10 ^ 400). split; [exact sample_accurate|]. split; [apply got_e; [vm_compute; reflexivity|]|split; [vm_compute; reflexivity|vm_compute; reflexivity]].
  apply (b_pow _ 30 2 (Int 1000)); [apply b_int|lia|got].
Qed.
(** 2^4000 + 1 > 2^4000 is False: the constant is not counted. *)
Theorem C24_constant_refuted :
  exists fl x y u v, accurate fl /\ built fl (Exp x) u /\ built fl y v /\ u > v /\ gt 2 30 x y = Some false.
Proof.
  assert (B : built sample p4000 (2 ^ 4000)) by (apply (b_pow _ 30 2 (Int 4000)); [apply b_int|lia|got]).
  exists sample, (get_e (get (add 30 p4000 (Int 1)))), p4000, (2 ^ 4000 + 1), (2 ^ 4000). split; [exact sample_accurate|].
  split; [apply got_e; [vm_compute; reflexivity|]; apply (b_add _ 30 p4000 (Int 1)); [exact B|apply b_int|got]|]. split; [exact B|]. split; [lia|vm_compute; reflexivity].
Qed.
(** 2^4000 - 2^4001, the second an int, counts as positive. *)
Theorem C24_sign_refuted :
  exists fl x u, accurate fl /\ built fl (Exp x) u /\ u < 0 /\ gt 2 30 x (Int 0) = Some true.
Proof.
  exists sample, (get_e (get (sub 30 p4000 (Int (2 ^ 4001))))), (2 ^ 4000 - 2 ^ 4001). split; [exact sample_accurate|].
  split; [apply got_e; [vm_compute; reflexivity|]; apply (b_sub _ 30 p4000 (Int (2 ^ 4001))); [|apply b_int|got]|split; vm_compute; reflexivity].
  apply (b_pow _ 30 2 (Int 4000)); [apply b_int|lia|got].
Qed.

Print Assumptions C23_values.
Print Assumptions C23_remainder_partial.
Print Assumptions C23_floor_division_partial.
Print Assumptions C23_remainder_refuted.
Print Assumptions C23_negative_divisor_refuted.
Print Assumptions C23_power_of_one_refuted.
Print Assumptions C24_small_partial.
Print Assumptions C24_small_defined.
Print Assumptions C24_large_against_int.
Print Assumptions C24_large_int_refuted.
Print Assumptions C24_constant_refuted.
Print Assumptions C24_sign_refuted.
