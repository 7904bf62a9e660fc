(** * Linear rules applied in closed form: proofs *)
Require Import ZArith List Lia Bool Arith QArith Lqa Qcanon.
From Verif Require Import M_Expr P_Expr M_Tape M_Simulator M_Prover M_Math Prop_Math Spec_Linear M_Linear.
Import ListNotations.
Close Scope Qc_scope.
Open Scope Z_scope.

Definition fapp (f : func) (z : Z) : Z :=
  match f with FSub _ c => z - c | FAdd _ c => z + c | FMul _ a b => a * z + b end.
Definition fwf (f : func) : Prop :=
  match f with
  | FSub m c => 0 < c
  | FAdd m c => 0 <= c
  | FMul m a b => 2 <= a /\ forall x, m <= x -> x <= a * x + b
  end.

Notation blk3 := (option nat * option Q * option val)%type.

(** a block of a rule and its function *)
Definition lblock (b : blk3) (f : option func) : Prop :=
  match b with
  | (None, _, _) => f = None
  | (Some x, m, r) => exists q mz coef const F,
      m = Some q /\ (q == inject_Z mz)%Q /\ r = Some (VE (Expr [Term [(x, 1%nat)] coef] const)) /\
      f = Some F /\ fwf F /\ mz <= f_min F /\ (f_decreasing F = true -> f_min F = mz) /\
      forall z, (coef * inject_Z z + const == inject_Z (fapp F z))%Q
  end.

Lemma q_int_some q z : q_int q = Some z -> (q == inject_Z z)%Q.
Proof.
  unfold q_int. intros H. destruct (Pos.eqb_spec (Qden (Qred q)) 1) as [E|]; [|discriminate].
  injection H as <-. transitivity (Qred q); [symmetry; apply Qred_correct|].
  destruct (Qred q) as [n d]. simpl in *. subst. reflexivity.
Qed.
Lemma q_int_of q z : (q == inject_Z z)%Q -> q_int q = Some z.
Proof.
  intros H. apply Qred_complete in H. unfold q_int. rewrite H.
  rewrite (Qred_identity (inject_Z z)); [reflexivity|]. simpl. apply Z.gcd_1_r.
Qed.

Lemma lin_func_ok x q e f :
  (0 <= q)%Q -> linear_shape (Some x, Some (VE e)) = true -> lin_func q e = Some f ->
  lblock (Some x, Some q, Some (VE e)) (Some f).
Proof.
  intros Hq Hs E. unfold lin_func in E. unfold linear_shape in Hs.
  destruct e as [ts const]. unfold as_strictly_linear in *. cbn [e_terms e_const] in *.
  destruct ts as [|[vs coef] [|? ?]]; try discriminate. cbn [t_vars t_coef] in *.
  destruct vs as [|[y p] [|? ?]]; try discriminate.
  destruct (Nat.eqb_spec p 1) as [->|]; [|discriminate].
  assert (x = y).
  { cbn in Hs. apply andb_true_iff in Hs as [Hs _]. now apply Nat.eqb_eq in Hs. }
  subst y. clear Hs.
  destruct (q_int q) as [m|] eqn:Em; [|discriminate].
  destruct (q_int coef) as [a|] eqn:Ea; [|discriminate].
  destruct (q_int const) as [b|] eqn:Eb; [|discriminate].
  apply q_int_some in Em, Ea, Eb.
  assert (Hm : 0 <= m). { rewrite Em in Hq. unfold Qle in Hq. simpl in Hq. lia. }
  assert (V : forall z, (coef * inject_Z z + const == inject_Z (a * z + b))%Q).
  { intros z. rewrite Ea, Eb, inject_Z_plus, inject_Z_mult. reflexivity. }
  exists q, m, coef, const, f. split; [reflexivity|]. split; [exact Em|]. split; [reflexivity|].
  split; [reflexivity|].
  destruct (Z.eqb_spec a 1) as [->|Na].
  - injection E as <-. destruct (Z.ltb_spec b 0).
    + cbn [fwf f_min f_decreasing fapp]. split; [lia|]. split; [lia|]. split; [auto|].
      intros z. rewrite V. replace (1 * z + b) with (z - - b) by lia. reflexivity.
    + cbn [fwf f_min f_decreasing fapp]. split; [lia|]. split; [lia|]. split; [auto|].
      intros z. rewrite V. replace (1 * z + b) with (z + b) by lia. reflexivity.
  - destruct (Z.ltb_spec 0 a); [|discriminate].
    destruct (mult_compute_min (inject_Z a) (inject_Z b) m) as [m'|] eqn:Emin; [|discriminate].
    injection E as <-. assert (A2 : 2 <= a) by lia.
    destruct (C20_mult_compute_min a b m A2 Hm) as (m2 & E2 & L & K & _).
    rewrite Emin in E2. injection E2 as <-. cbn [fwf f_min f_decreasing fapp].
    split; [split; auto|]. split; [exact L|]. split; [discriminate|exact V].
Qed.

Lemma try_gen_ok bs fs :
  Forall (fun b : blk3 => min_ok (snd (fst b))) bs ->
  try_gen bs = Some (Some fs) -> Forall2 lblock bs fs.
Proof.
  intros Hm. revert fs. induction Hm as [|[[[x|] m] r] bs Hb Hbs IH]; intros fs E; cbn [try_gen] in E.
  - injection E as <-. constructor.
  - destruct (linear_shape (Some x, r)) eqn:Es; cbn [negb] in E; [|discriminate].
    destruct m as [m|]; [|discriminate]. destruct r as [[q|e]|]; try discriminate.
    destruct (lin_func m e) as [f|] eqn:Ef; [|discriminate].
    destruct (try_gen bs) as [[gs|]|] eqn:Eg; try discriminate. injection E as <-.
    constructor; [|now apply IH]. now apply lin_func_ok.
  - destruct (try_gen bs) as [[gs|]|] eqn:Eg; try discriminate. injection E as <-.
    constructor; [reflexivity|now apply IH].
Qed.

(** ** Iterating *)
Definition it1 (k : nat) (fn : option func * option Z) : option Z :=
  match fn with (Some f, Some z) => Some (iter (fapp f) k z) | (_, n) => n end.
Definition its (k : nat) (fs : list (option func)) (cur : list (option Z)) : list (option Z) :=
  map (it1 k) (combine fs cur).

Lemma iter_S f n x : iter f (S n) x = f (iter f n x).
Proof. reflexivity. Qed.

(** counts at least the minimum of their function *)
Definition above (fn : option func * option Z) : Prop :=
  match fn with (Some f, Some z) => f_min f <= z | (Some _, None) => False | _ => True end.

Lemma up_stays f z k : fwf f -> f_decreasing f = false -> f_min f <= z -> f_min f <= iter (fapp f) k z.
Proof.
  intros W D H. induction k as [|k IH]; [exact H|]. rewrite iter_S.
  destruct f; try discriminate; cbn [fapp fwf f_min] in *.
  - lia.
  - destruct W as [_ W]. specialize (W _ IH). lia.
Qed.

Notation bvars bs := (vlist (map (fun b : blk3 => fst (fst b)) bs)).

Lemma ev_lin rho x coef const :
  (evv rho (VE (Expr [Term [(x, 1%nat)] coef] const)) == coef * rho x + const)%Q.
Proof.
  unfold evv, ev, ev_terms, ev_term, ev_vps. cbn [e_terms e_const fold_right t_coef t_vars fst snd].
  rewrite qpow_1. ring.
Qed.

Lemma fires_ext sg sg' bs fs cur cur' :
  Forall2 lblock bs fs -> Forall2 blk_ok bs cur ->
  (forall x, In x (bvars bs) -> sg x = sg' x) -> fires_with sg bs cur cur' -> fires_with sg' bs cur cur'.
Proof.
  intros L. revert cur cur'. induction L as [|[[[x|] m] r] f bs fs Hb L IH]; intros cur cur' A E F;
    inversion F as [|? ? n ns n' ns' F1 F2]; subst; constructor; inversion A; subst.
  - destruct Hb as (q & mz & coef & const & G & -> & Eq & -> & -> & _).
    inversion F1; subst. constructor; auto.
    + symmetry. apply E. simpl. auto.
    + match goal with H : (evv _ _ == _)%Q |- _ => rewrite <- H end.
      rewrite !ev_lin. unfold env. rewrite E by (simpl; auto). reflexivity.
  - apply IH; auto. intros y Hy. apply E. simpl. auto.
  - match goal with H : blk_ok _ _ |- _ => simpl in H; subst r end.
    destruct n as [z|]; inversion F1; subst; constructor. assumption.
  - apply IH; auto.
Qed.

Lemma fires_step bs : forall fs cur,
  Forall2 lblock bs fs -> Forall2 blk_ok bs cur -> NoDup (bvars bs) -> Forall above (combine fs cur) ->
  exists sg, fires_with sg bs cur (its 1 fs cur) /\
    forall x z, In (Some x, Some z) (combine (map (fun b : blk3 => fst (fst b)) bs) cur) -> sg x = z.
Proof.
  induction bs as [|[[[x|] m] r] bs IH]; intros fs cur L A N Ab;
    inversion L as [|? f ? fs' Hb L']; subst; inversion A as [|? n ? cur' Hn A']; subst.
  - exists (fun _ => 0). split; [constructor|intros x z []].
  - cbn [map vlist fst] in N. inversion N as [|? ? Nx N']; subst.
    cbn [combine] in Ab. inversion Ab as [|? ? Ab1 Ab2]; subst.
    destruct (IH fs' cur' L' A' N' Ab2) as (sg & F & V).
    destruct Hb as (q & mz & coef & const & G & -> & Eq & -> & -> & W & Lm & _ & Hv).
    destruct n as [z|]; [|now elim Hn]. cbn [above] in Ab1.
    exists (fun y => if Nat.eqb y x then z else sg y). split.
    + unfold its. cbn [combine map it1]. constructor.
      * constructor.
        -- now rewrite Nat.eqb_refl.
        -- rewrite Eq. rewrite <- Zle_Qle. lia.
        -- rewrite ev_lin. unfold env. rewrite Nat.eqb_refl. cbn [iter]. apply Hv.
      * apply (fires_ext sg _ bs fs'); auto. intros y Hy.
        destruct (Nat.eqb_spec y x) as [->|]; [contradiction|reflexivity].
    + cbn [map fst combine]. intros y w [E|Hi].
      * injection E as <- <-. now rewrite Nat.eqb_refl.
      * destruct (Nat.eqb_spec y x) as [->|]; [|now apply V].
        exfalso. apply Nx. clear -Hi. revert cur' Hi.
        induction bs as [|[[o m] r] bs IH]; intros [|c cs] Hi; simpl in Hi; try contradiction.
        destruct Hi as [E|Hi]; [injection E as -> ->; simpl; auto|].
        simpl. destruct o; simpl; eauto.
  - cbn [combine] in Ab. inversion Ab as [|? ? Ab1 Ab2]; subst. cbn [map vlist fst] in N.
    destruct (IH fs' cur' L' A' N Ab2) as (sg & F & V). exists sg. simpl in Hb. subst f.
    simpl in Hn. subst r. split.
    + unfold its. cbn [combine map it1]. constructor; [|exact F].
      destruct n as [z|]; constructor. reflexivity.
    + cbn [map fst combine]. intros y w [E|Hi]; [discriminate|auto].
Qed.

Lemma its_ok bs fs cur k : Forall2 lblock bs fs -> Forall2 blk_ok bs cur -> Forall2 blk_ok bs (its k fs cur).
Proof.
  intros L. revert cur. induction L as [|[[[x|] m] r] f bs fs Hb L IH]; intros cur A; inversion A as [|? n ? cur' Hn A']; subst;
    unfold its; cbn [combine map]; constructor; try now apply IH.
  - destruct Hb as (? & ? & ? & ? & G & _ & _ & _ & -> & _). destruct n; [|now elim Hn]. discriminate.
  - simpl in Hb. subst f. exact Hn.
Qed.

Lemma its_its k fs : forall cur, its 1 fs (its k fs cur) = its (S k) fs cur.
Proof.
  induction fs as [|f fs IH]; intros [|n cur]; try reflexivity.
  unfold its in *. cbn [combine map]. rewrite IH. f_equal. destruct f, n; reflexivity.
Qed.
Lemma its_0 bs fs cur : Forall2 lblock bs fs -> Forall2 blk_ok bs cur -> its 0 fs cur = cur.
Proof.
  intros L. revert cur. induction L as [|b f bs fs _ L IH]; intros cur A; inversion A; subst; [reflexivity|].
  unfold its in *. cbn [combine map]. rewrite IH by assumption. f_equal. destruct f, y; reflexivity.
Qed.

Lemma its_combine k fs : forall cur,
  combine fs (its k fs cur) = map (fun fn => (fst fn, it1 k fn)) (combine fs cur).
Proof.
  induction fs as [|f fs IH]; intros [|n cur]; try reflexivity.
  unfold its in *. cbn [combine map fst]. now rewrite IH.
Qed.

(** the run of a rule that can be applied [k] times *)
Lemma fires_iter bs fs cur k :
  Forall2 lblock bs fs -> Forall2 blk_ok bs cur -> NoDup (bvars bs) ->
  Forall above (map (fun fn => (fst fn, it1 k fn)) (combine fs cur)) ->
  exists sg, fires_with sg bs (its k fs cur) (its (S k) fs cur).
Proof.
  intros L A N H. rewrite <- its_combine in H.
  destruct (fires_step bs fs (its k fs cur) L (its_ok bs fs cur k L A) N H) as (sg & F & _).
  rewrite its_its in F. eauto.
Qed.

(** ** fits_min *)
Lemma always_ge_Z z m : always_ge (VS (inject_Z z)) (VS (inject_Z m)) = (m <=? z).
Proof.
  unfold always_ge. cbn -[Z.leb inject_Z Qle_bool].
  destruct (Z.leb_spec m z) as [H|H].
  - apply Qle_bool_iff. rewrite Zle_Qle in H. lra.
  - apply not_true_is_false. intros E. apply Qle_bool_iff in E.
    assert (K : (inject_Z m <= inject_Z z)%Q) by lra.
    rewrite <- Zle_Qle in K. lia.
Qed.

Definition aboveb (fn : option func * option Z) : bool :=
  match fn with (Some f, Some z) => f_min f <=? z | (Some _, None) => false | _ => true end.
Lemma aboveb_spec l : forallb aboveb l = true <-> Forall above l.
Proof.
  rewrite forallb_forall, Forall_forall. split; intros H x Hx; specialize (H x Hx);
    destruct x as [[f|] [z|]]; cbn [aboveb above] in *; auto; try discriminate; try contradiction; lia.
Qed.

(** the assignment of the counts to the variables *)
Fixpoint asn (vars : list (option nat)) (cur : list (option Z)) : subs :=
  match vars, cur with
  | Some x :: vars, Some z :: cur => (x, VS (inject_Z z)) :: asn vars cur
  | _ :: vars, _ :: cur => asn vars cur
  | _, _ => []
  end.

Lemma fits_lin vars : forall mins result fs cur asg,
  length mins = length vars -> length result = length vars ->
  Forall2 lblock (combine (combine vars mins) result) fs ->
  Forall2 blk_ok (combine (combine vars mins) result) cur ->
  fits_min (combine (combine vars (map new_min (combine fs mins))) cur) asg =
  if forallb aboveb (combine fs cur) then Some (Some (asg ++ asn vars cur)) else Some None.
Proof.
  induction vars as [|v vars IH]; intros [|m mins] [|r result] fs cur asg L1 L2 L A; try discriminate;
    cbn [combine] in *; inversion L as [|? f ? fs' Hb L']; subst; inversion A as [|? n ? cur' Hn A']; subst.
  - cbn. now rewrite app_nil_r.
  - cbn [combine map new_min forallb asn]. injection L1 as L1. injection L2 as L2.
    destruct v as [x|].
    + destruct Hb as (q & mz & coef & const & G & -> & Eq & -> & -> & W & Lm & _).
      destruct n as [z|]; [|now elim Hn]. cbn [new_min fits_min aboveb].
      rewrite always_ge_Z. destruct (f_min G <=? z); [|reflexivity]. cbn [andb].
      rewrite (IH mins result fs' cur') by assumption. now rewrite <- app_assoc.
    + simpl in Hb. subst f. cbn [new_min fits_min aboveb andb].
      rewrite (IH mins result fs' cur') by assumption. reflexivity.
Qed.

(** every result is evaluated to the next count *)
Lemma eval_lin x coef const z F asg :
  (forall z, (coef * inject_Z z + const == inject_Z (fapp F z))%Q) ->
  subs_get x asg = Some (VS (inject_Z z)) ->
  match v_subst (VE (Expr [Term [(x, 1%nat)] coef] const)) asg with Some w => v_int w | None => None end
  = Some (fapp F z).
Proof.
  intros V E.
  destruct (v_subst (VE (Expr [Term [(x, 1%nat)] coef] const)) asg) as [w|] eqn:Ew.
  - pose proof (v_subst_ev (fun _ => 0%Q) _ _ _ Ew) as H.
    assert (Hw : exists q, w = VS q).
    { cbn in Ew. rewrite E in Ew. cbn in Ew.
      repeat match type of Ew with context [if ?b then _ else _] => destruct b end;
        cbn in Ew; injection Ew as <-; eauto. }
    destruct Hw as [q ->]. cbn [v_int]. apply q_int_of. cbn [evv] in H. rewrite H.
    change (ev ?r ?e) with (evv r (VE e)). rewrite ev_lin. unfold rho_subs. rewrite E. apply V.
  - exfalso. cbn in Ew. rewrite E in Ew. cbn in Ew.
    repeat match type of Ew with context [if ?b then _ else _] => destruct b end; cbn in Ew; discriminate.
Qed.

Lemma eval_results bs fs asg : forall cur,
  Forall2 lblock bs fs -> Forall2 blk_ok bs cur ->
  (forall x z, In (Some x, Some z) (combine (map (fun b : blk3 => fst (fst b)) bs) cur) ->
     subs_get x asg = Some (VS (inject_Z z))) ->
  map_opt (inf_opt (fun v => match v_subst v asg with Some w => v_int w | None => None end)) (map snd bs)
  = Some (its 1 fs cur).
Proof.
  intros cur L. revert cur. induction L as [|[[[x|] m] r] f bs fs Hb L IH]; intros cur A G;
    inversion A as [|? n ? cur' Hn A']; subst; cbn [map snd map_opt fst combine] in *; [reflexivity| |].
  - rewrite (IH cur' A') by (intros; apply G; simpl; auto).
    destruct Hb as (q & mz & coef & const & F & -> & Eq & -> & -> & W & Lm & _ & Hv).
    destruct n as [z|]; [|now elim Hn]. cbn [inf_opt].
    rewrite (eval_lin x coef const z F asg Hv) by (apply G; simpl; auto). reflexivity.
  - rewrite (IH cur' A') by (intros; apply G; simpl; auto). simpl in Hb, Hn. subst f r.
    destruct n as [z|]; [|reflexivity]. cbn [option_map inf_opt v_subst v_int].
    rewrite q_int_of with (z := z) by reflexivity. reflexivity.
Qed.

Lemma asn_get vars : forall cur x z, NoDup (vlist vars) ->
  In (Some x, Some z) (combine vars cur) -> subs_get x (asn vars cur) = Some (VS (inject_Z z)).
Proof.
  induction vars as [|v vars IH]; intros [|n cur] x z N H; simpl in H; try contradiction.
  destruct H as [E|H].
  - injection E as -> ->. cbn [asn]. cbn. now rewrite Nat.eqb_refl.
  - destruct v as [y|]; cbn [vlist] in N.
    + inversion N as [|? ? Ny N']; subst.
      assert (x <> y).
      { intros ->. apply Ny. clear -H. revert cur H. induction vars as [|v vars IH]; intros [|c cur] H; simpl in H; try contradiction.
        destruct H as [E|H]; [injection E as -> ->; simpl; auto|]. destruct v; simpl; eauto. }
      destruct n as [w|]; cbn [asn]; [|now apply IH]. cbn.
      destruct (Nat.eqb_spec x y); [contradiction|]. now apply IH.
    + cbn [asn]. destruct n; now apply IH.
Qed.

(** ** The number of repetitions *)

(** what the scan has found: the smallest number of repetitions *)
Definition lim_ok (lim : option (Z * nat * Z)) : Prop :=
  match lim with Some (r, _, _) => 1 <= r | None => True end.

Definition reps_le (r : Z) (fn : option func * option Z) : Prop :=
  match fn with (Some (FSub m c), Some z) => r <= fst (subtract_max_reps m c z) | _ => True end.

Lemma max_reps_pos m c z : 0 < c -> m <= z -> 1 <= fst (subtract_max_reps m c z).
Proof.
  intros C H. unfold subtract_max_reps. cbn [fst].
  apply Z.div_le_lower_bound; lia.
Qed.

Definition fwfo (fn : option func * option Z) : Prop :=
  match fst fn with Some f => fwf f | None => True end.

Lemma lin_limit_ok l : Forall above l -> Forall fwfo l -> forall i lim, lim_ok lim ->
  exists lim', lin_limit i l lim = Some lim' /\
    (lim = None -> existsb (fun f => match f with Some f => f_decreasing f | None => false end) (map fst l) = true ->
       lim' <> None) /\
    match lim' with
    | None => lim = None
    | Some (r, li, final) =>
      1 <= r /\ Forall (reps_le r) l /\ (match lim with Some (r0, _, _) => r <= r0 | None => True end) /\
      (lim' = lim \/ (i <= li)%nat /\ exists m c z, nth_error l (li - i) = Some (Some (FSub m c), Some z) /\
                     subtract_max_reps m c z = (r, final))
    end.
Proof.
  induction 1 as [|[f n] l Ha Hl IH]; intros Hw i lim Hlim.
  - exists lim. cbn. split; [reflexivity|]. split; [discriminate|]. destruct lim as [[[r li] final]|]; [|reflexivity].
    cbn in Hlim. split; [lia|]. split; [constructor|]. split; [lia|]. now left.
  - inversion Hw as [|? ? W Hw']; subst. specialize (IH Hw').
    assert (Skip : match f with Some (FSub _ _) => False | _ => True end ->
      lin_limit i ((f, n) :: l) lim = lin_limit (S i) l lim).
    { destruct f as [[]|]; [contradiction|reflexivity..]. }
    assert (Or : forall (P Q : Prop), P \/ Q -> P \/ Q) by auto.
    destruct f as [[m c|m c|m a b]|].
    + destruct n as [z|]; [|contradiction]. cbn [above f_min] in Ha. cbn [fwfo fst fwf] in W.
      pose proof (max_reps_pos m c z W Ha) as P.
      cbn [lin_limit]. destruct (subtract_max_reps m c z) as [tr tf] eqn:Es. cbn [fst] in P.
      set (lim1 := match lim with
               | None => Some (tr, i, tf)
               | Some (num_reps, _, _) =>
                 if (num_reps =? 0) || (tr <? num_reps) then Some (tr, i, tf) else lim
               end).
      assert (H1 : exists r1 l1 f1, lim1 = Some (r1, l1, f1) /\ 1 <= r1 /\ r1 <= tr /\
                (match lim with Some (r0, _, _) => r1 <= r0 | None => True end) /\
                (lim1 = lim \/ lim1 = Some (tr, i, tf))).
      { unfold lim1. destruct lim as [[[r0 l0] f0]|].
        - cbn in Hlim. destruct (Z.eqb_spec r0 0); [lia|]. cbn [orb].
          destruct (Z.ltb_spec tr r0).
          + exists tr, i, tf. repeat split; auto; lia.
          + exists r0, l0, f0. repeat split; auto; lia.
        - exists tr, i, tf. repeat split; auto; lia. }
      destruct H1 as (r1 & l1 & f1 & E1 & P1 & P2 & P3 & P4). clearbody lim1. subst lim1.
      destruct (IH (S i) (Some (r1, l1, f1)) P1) as (lim' & E' & _ & K).
      exists lim'. split; [exact E'|]. destruct lim' as [[[r li] final]|]; [|discriminate].
      split; [discriminate|]. destruct K as (K1 & K2 & K3 & K4). cbv beta iota in K3. split; [exact K1|].
      split; [constructor; [cbn [reps_le]; rewrite Es; cbn; lia|exact K2]|].
      split; [destruct lim as [[[r0 ?] ?]|]; [lia|exact I]|].
      destruct K4 as [K4|(K4 & m' & c' & z' & K5 & K6)].
      * rewrite K4. destruct P4 as [P4|P4]; [now left|right]. rewrite P4 in K4. injection K4 as -> -> ->.
        split; [lia|]. exists m, c, z. rewrite Nat.sub_diag. split; [reflexivity|exact Es].
      * right. split; [lia|]. exists m', c', z'. replace (li - i)%nat with (S (li - S i))%nat by lia. auto.
    + rewrite Skip by exact I. destruct (IH (S i) lim Hlim) as (lim' & E' & D & K). exists lim'.
      split; [exact E'|]. split; [exact D|]. destruct lim' as [[[r li] final]|]; [|exact K].
      destruct K as (K1 & K2 & K3 & K4). split; [exact K1|]. split; [constructor; [exact I|exact K2]|].
      split; [exact K3|]. destruct K4 as [K4|(K4 & m' & c' & z' & K5 & K6)]; [now left|right].
      split; [lia|]. exists m', c', z'. replace (li - i)%nat with (S (li - S i))%nat by lia. auto.
    + rewrite Skip by exact I. destruct (IH (S i) lim Hlim) as (lim' & E' & D & K). exists lim'.
      split; [exact E'|]. split; [exact D|]. destruct lim' as [[[r li] final]|]; [|exact K].
      destruct K as (K1 & K2 & K3 & K4). split; [exact K1|]. split; [constructor; [exact I|exact K2]|].
      split; [exact K3|]. destruct K4 as [K4|(K4 & m' & c' & z' & K5 & K6)]; [now left|right].
      split; [lia|]. exists m', c', z'. replace (li - i)%nat with (S (li - S i))%nat by lia. auto.
    + rewrite Skip by exact I. destruct (IH (S i) lim Hlim) as (lim' & E' & D & K). exists lim'.
      split; [exact E'|]. split; [exact D|]. destruct lim' as [[[r li] final]|]; [|exact K].
      destruct K as (K1 & K2 & K3 & K4). split; [exact K1|]. split; [constructor; [exact I|exact K2]|].
      split; [exact K3|]. destruct K4 as [K4|(K4 & m' & c' & z' & K5 & K6)]; [now left|right].
      split; [lia|]. exists m', c', z'. replace (li - i)%nat with (S (li - S i))%nat by lia. auto.
Qed.

(** a block whose function is at its fixed point *)
Definition fixed (fn : option func * option Z) : Prop :=
  match fn with (Some (FMul _ a b), Some z) => a * z + b = z | _ => False end.

Lemma apply_rep_ok f z k : fwf f -> (1 <= k)%nat ->
  f_apply_rep f z (Z.of_nat k) = Some (iter (fapp f) k z) \/
  f_apply_rep f z (Z.of_nat k) = None /\ fixed (Some f, Some z).
Proof.
  intros W K. destruct f as [m c|m c|m a b]; cbn [f_apply_rep fwf] in *.
  - left. rewrite C20_subtract_apply_rep. reflexivity.
  - left. rewrite C20_add_apply_rep. reflexivity.
  - destruct W as [A _]. pose proof (C20_mult_apply_rep a b z k A) as H.
    destruct (mult_apply_rep a b z (Z.of_nat k)) as [q|].
    + left. now apply q_int_of.
    + right. split; [reflexivity|]. cbn. destruct H; [lia|exact H].
Qed.

Lemma lin_counts_ok l k : Forall above l -> Forall fwfo l -> (1 <= k)%nat -> forall i li final,
  ((li < i)%nat \/ (i <= li)%nat /\ exists f z, nth_error l (li - i) = Some (Some f, Some z) /\ final = iter (fapp f) k z) ->
  lin_counts i li final (Z.of_nat k) l = Some (map (it1 k) l) \/
  lin_counts i li final (Z.of_nat k) l = None /\ Exists fixed l.
Proof.
  intros Ha Hw K. induction Ha as [|[f n] l H Ha IH]; intros i li final Hli; [now left|].
  inversion Hw as [|? ? W Hw']; subst. specialize (IH Hw'). cbn [lin_counts map].
  destruct (Nat.eqb_spec i li) as [->|Ne].
  - destruct Hli as [Hli|(_ & g & z & E & ->)]; [lia|]. rewrite Nat.sub_diag in E. cbn in E. injection E as -> ->.
    destruct (IH (S li) li (iter (fapp g) k z)) as [->|[-> Hex]]; [left; lia|left; reflexivity|right; auto].
  - assert (Hli' : (li < S i)%nat \/ (S i <= li)%nat /\ exists f z, nth_error l (li - S i) = Some (Some f, Some z) /\ final = iter (fapp f) k z).
    { destruct Hli as [Hli|(Hli & g & z & E & F)]; [left; lia|right]. split; [lia|].
      replace (li - i)%nat with (S (li - S i))%nat in E by lia. eauto. }
    destruct (IH (S i) li final Hli') as [->|[-> Hex]].
    + destruct f as [f|]; [|left; destruct n; reflexivity].
      destruct n as [z|]; [|contradiction].
      destruct (apply_rep_ok f z k W K) as [->|[-> Hf]]; [left; reflexivity|right].
      split; [reflexivity|]. now constructor.
    + right. split; [|auto]. destruct f as [f|], n as [z|]; try reflexivity.
      destruct (f_apply_rep f z (Z.of_nat k)); reflexivity.
Qed.

Lemma lblock_wf bs fs cur : Forall2 lblock bs fs -> Forall fwfo (combine fs cur).
Proof.
  intros L. revert cur. induction L as [|[[[x|] m] r] f bs fs Hb L IH]; intros [|n cur]; cbn [combine]; constructor; auto.
  - destruct Hb as (? & ? & ? & ? & G & _ & _ & _ & -> & W & _). exact W.
  - simpl in Hb. subst f. exact I.
Qed.

(** while the smallest number of repetitions is not reached every count is large enough *)
Lemma above_before l r j : Forall above l -> Forall fwfo l -> Forall (reps_le r) l -> Z.of_nat j < r ->
  Forall above (map (fun fn => (fst fn, it1 j fn)) l).
Proof.
  intros Ha. induction Ha as [|[f n] l H Ha IH]; intros Hw Hr J; cbn [map]; constructor;
    inversion Hw as [|? ? W Hw']; inversion Hr as [|? ? R Hr']; subst; auto.
  destruct f as [f|]; [|destruct n; exact I]. destruct n as [z|]; [|contradiction].
  cbn [it1 fst above] in *. destruct (f_decreasing f) eqn:D; [|now apply up_stays].
  destruct f as [m c| |]; try discriminate. cbn [fwfo fst fwf f_min reps_le] in *.
  destruct (subtract_max_reps m c z) as [tr tf] eqn:Es. cbn [fst] in R.
  assert (A1 : m - c <= z) by lia.
  destruct (C20_subtract_max_reps m c z tr tf W A1 Es) as (_ & A2 & _). cbn [fapp].
  apply A2. lia.
Qed.

Lemma nth_its k fs cur i f z :
  nth_error (combine fs cur) i = Some (Some f, Some z) ->
  nth_error (combine fs (its k fs cur)) i = Some (Some f, Some (iter (fapp f) k z)).
Proof.
  intros H. rewrite its_combine, nth_error_map, H. reflexivity.
Qed.

(** a block below its minimum stops the rule *)
Lemma no_fires bs fs cur i m c z :
  Forall2 lblock bs fs -> nth_error (combine fs cur) i = Some (Some (FSub m c), Some z) -> z < m ->
  forall sg c', ~ fires_with sg bs cur c'.
Proof.
  intros L. revert cur i. induction L as [|[[[x|] mm] r] f bs fs Hb L IH]; intros [|n cur] i E Z sg c' F;
    try (destruct i; discriminate).
  - inversion F as [|? ? ? ? n' ns' F1 F2]; subst. destruct i as [|i]; cbn [combine nth_error] in E.
    + injection E as -> ->. destruct Hb as (q & mz & coef & const & G & -> & Eq & -> & EG & W & Lm & D & _).
      injection EG as <-. inversion F1; subst. specialize (D eq_refl). cbn [f_min] in D. subst mz.
      match goal with H : (q <= _)%Q |- _ => rewrite Eq in H; rewrite <- Zle_Qle in H end. lia.
    + eapply IH; eauto.
  - inversion F as [|? ? ? ? n' ns' F1 F2]; subst. destruct i as [|i]; cbn [combine nth_error] in E.
    + simpl in Hb. subst f. discriminate.
    + eapply IH; eauto.
Qed.

Lemma f2_len {A B} (R : A -> B -> Prop) l l' : Forall2 R l l' -> length l = length l'.
Proof. induction 1; simpl; congruence. Qed.

Section Rule.
  Variables (vars : list (option nat)) (mins : list (option Q)) (result : list (option val)) (l : linear_rule).
  Hypothesis HT : linear_try_gen vars mins result = Some (Some l).
  Hypothesis L1 : length mins = length vars.
  Hypothesis L2 : length result = length vars.
  Hypothesis ND : NoDup (vlist vars).
  Hypothesis HM : Forall min_ok mins.

  Let bs := combine (combine vars mins) result.

  Lemma bs_vars : map (fun b : blk3 => fst (fst b)) bs = vars.
  Proof using L1 L2.
    unfold bs. clear -L1 L2. revert mins result L1 L2. induction vars as [|v vs IH]; intros [|m ms] [|r rs] A B; try discriminate; [reflexivity|].
    cbn [combine map fst]. f_equal. apply IH; simpl in *; lia.
  Qed.
  Lemma bs_result : map snd bs = result.
  Proof using L1 L2.
    unfold bs. clear -L1 L2. revert mins result L1 L2. induction vars as [|v vs IH]; intros [|m ms] [|r rs] A B; try discriminate; [reflexivity|].
    cbn [combine map snd]. f_equal. apply IH; simpl in *; lia.
  Qed.
  Lemma bs_nodup : NoDup (bvars bs).
  Proof using L1 L2 ND. rewrite bs_vars. exact ND. Qed.

  Lemma rule_is : exists fs, Forall2 lblock bs fs /\ l = LinearRule vars (map new_min (combine fs mins)) fs result.
  Proof using HT HM.
    unfold linear_try_gen in HT. fold bs in HT. destruct (try_gen bs) as [[fs|]|] eqn:E; try discriminate.
    injection HT as <-. exists fs. split; [|reflexivity]. apply try_gen_ok; [|exact E].
    unfold bs. clear -HM. rewrite Forall_forall in *. intros [[v m] r] H.
    apply in_combine_l in H. apply in_combine_r in H. simpl. now apply HM.
  Qed.

  Variable cur : list (option Z).
  Hypothesis HC : Forall2 blk_ok bs cur.

  Lemma fs_len fs : Forall2 lblock bs fs -> length fs = length vars.
  Proof using L1 L2. intros L. apply f2_len in L. rewrite <- L. unfold bs. rewrite !combine_length. lia. Qed.
  Lemma cur_len : length cur = length vars.
  Proof using L1 L2 HC. apply f2_len in HC. rewrite <- HC. unfold bs. rewrite !combine_length. lia. Qed.

  (** the whole of [apply_linear_counts] *)
  Lemma apply_linear_cases :
    exists fs, Forall2 lblock bs fs /\ l = LinearRule vars (map new_min (combine fs mins)) fs result /\
    match apply_linear_counts l cur with
    | None => Exists fixed (combine fs cur)
    | Some LBelow => ~ Forall above (combine fs cur)
    | Some LInf => Forall above (combine fs cur) /\ forall j, Forall above (map (fun fn => (fst fn, it1 j fn)) (combine fs cur))
    | Some (LApply new) => exists k, (1 <= k)%nat /\ new = its k fs cur /\
        (forall j, (j < k)%nat -> Forall above (map (fun fn => (fst fn, it1 j fn)) (combine fs cur))) /\
        exists i m c z, nth_error (combine fs new) i = Some (Some (FSub m c), Some z) /\ z < m
    end.
  Proof using HT L1 L2 HM HC.
    destruct rule_is as (fs & L & El). exists fs. split; [exact L|]. split; [exact El|].
    unfold apply_linear_counts. rewrite El. cbn [l_vars l_mins l_funcs].
    rewrite cur_len, Nat.eqb_refl. cbn [negb].
    rewrite (fits_lin vars mins result fs cur []) by assumption.
    destruct (forallb aboveb (combine fs cur)) eqn:Ea.
    2:{ intros H. apply aboveb_spec in H. congruence. }
    apply aboveb_spec in Ea. pose proof (lblock_wf bs fs cur L) as W.
    assert (M1 : map fst (combine fs cur) = fs).
    { pose proof (fs_len fs L) as Hf. pose proof cur_len as Hc. rewrite <- Hc in Hf. clear -Hf.
      revert cur Hf. induction fs as [|f fs IH]; intros [|c cs] H; try discriminate; [reflexivity|].
      cbn [combine map fst]. f_equal. apply IH. simpl in H. lia. }
    unfold l_infinite. cbn [l_funcs].
    destruct (existsb (fun f => match f with Some f => f_decreasing f | None => false end) fs) eqn:Ed; cbn [negb];
      rewrite <- M1 in Ed.
    - destruct (lin_limit_ok (combine fs cur) Ea W 0 None I) as (lim & E & D & K). rewrite E.
      destruct lim as [[[r li] final]|]; [|now elim (D eq_refl Ed)].
      destruct K as (K1 & K2 & _ & [K4|(_ & m & c & z & K5 & K6)]); [discriminate|].
      destruct (Z.ltb_spec r 0); [lia|]. rewrite Nat.sub_0_r in K5.
      set (k := Z.to_nat r). assert (Er : r = Z.of_nat k) by (unfold k; lia).
      assert (Ab : m <= z /\ 0 < c).
      { pose proof (nth_error_In _ _ K5) as Hin. rewrite Forall_forall in Ea, W.
        specialize (Ea _ Hin). specialize (W _ Hin). cbn in Ea, W. auto. }
      assert (A1 : m - c <= z) by lia.
      destruct (C20_subtract_max_reps m c z r final (proj2 Ab) A1 K6) as (_ & _ & S1 & S2).
      fold k in S1, S2. rewrite Er.
      destruct (lin_counts_ok (combine fs cur) k Ea W ltac:(unfold k; lia) 0 li final) as [->|[-> Hex]].
      { right. split; [lia|]. exists (FSub m c), z. rewrite Nat.sub_0_r. auto. }
      + cbn [option_map]. exists k. split; [unfold k; lia|]. split; [reflexivity|]. split.
        * intros j J. apply (above_before _ r); auto. lia.
        * exists li, m, c, (iter (fun x => x - c) k z). split; [|exact S1].
          change (map (it1 k) (combine fs cur)) with (its k fs cur). now apply nth_its with (k := k) in K5.
      + cbn [option_map]. exact Hex.
    - split; [exact Ea|]. intros j. clear -Ea W Ed. induction Ea as [|[f n] l0 H Ea IH]; cbn [map]; constructor;
        cbn [map fst existsb] in Ed; apply orb_false_iff in Ed as [Ed1 Ed2]; inversion W; subst; auto.
      destruct f as [f|], n as [z|]; cbn [it1 fst above] in *; auto. now apply up_stays.
  Qed.

  (** applying the general rule instead *)
  Lemma gen_reps_lin fs k : Forall2 lblock bs fs ->
    (forall j, (j < k)%nat -> Forall above (map (fun fn => (fst fn, it1 j fn)) (combine fs cur))) ->
    (exists f z, In (Some (FSub f z)) fs /\ 0 < z) ->
    forall j fuel acc last, (j <= k)%nat -> (k - j <= fuel)%nat ->
    ~ Forall above (combine fs (its k fs cur)) ->
    (j = k -> last <> None) ->
    exists asg, gen_reps fuel vars (map new_min (combine fs mins)) result (VS 0%Q) (its j fs cur) acc last
      = Some (GDone (its k fs cur) acc (Some asg)).
  Proof using L1 L2 ND HC.
    intros L HB HD j fuel. revert j. induction fuel as [|fuel IH]; intros j acc last J1 J2 HN HL.
    - assert (j = k) by lia. subst j. cbn [gen_reps].
      rewrite (fits_lin vars mins result fs (its k fs cur) []) by (auto; now apply its_ok).
      destruct (forallb aboveb _) eqn:Ea; [apply aboveb_spec in Ea; contradiction|].
      destruct last as [asg|]; [eauto|now elim HL].
    - cbn [gen_reps].
      rewrite (fits_lin vars mins result fs (its j fs cur) []) by (auto; now apply its_ok).
      destruct (Nat.eq_dec j k) as [->|Ne].
      + destruct (forallb aboveb _) eqn:Ea; [apply aboveb_spec in Ea; contradiction|].
        destruct last as [asg|]; [eauto|now elim HL].
      + assert (Hj : (j < k)%nat) by lia. specialize (HB j Hj).
        rewrite <- its_combine in HB. apply aboveb_spec in HB. rewrite HB.
        cbn [v_subst app].
        pose proof (eval_results bs fs (asn vars (its j fs cur)) (its j fs cur) L (its_ok bs fs cur j L HC)) as Ev.
        rewrite bs_result in Ev. rewrite Ev by (intros x z H; rewrite bs_vars in H; now apply asn_get). clear Ev.
        rewrite its_its. cbn [v_int]. change (q_int 0%Q) with (Some 0). cbv iota.
        assert (Hne : znums_eqb (its (S j) fs cur) (its j fs cur) = false).
        { destruct HD as (m & c & HD & Hc). clear -HD Hc HC L.
          revert cur HC. induction L as [|[[v mm] r] f bs' fs' Hb L IH]; intros [|n cs] A; [destruct HD| |inversion A..|].
          - inversion A; subst.
          - inversion A as [|? ? ? ? A1 A2]; subst. unfold its. cbn [combine map]. destruct HD as [->|HD].
            + destruct v as [x|]; [|simpl in Hb; discriminate]. destruct n as [z|]; [|now elim A1].
              cbn [it1 znums_eqb]. rewrite iter_S. cbn [fapp].
              destruct (Z.eqb_spec (iter (fapp (FSub m c)) j z - c) (iter (fapp (FSub m c)) j z)); [lia|]. reflexivity.
            + specialize (IH HD cs A2). unfold its in IH.
              destruct (it1 (S j) (f, n)), (it1 j (f, n)); cbn [znums_eqb]; auto. rewrite IH. apply andb_false_r. }
        rewrite Hne. rewrite Z.add_0_r. apply IH; auto; try lia. discriminate.
  Qed.
End Rule.
