(** * C76, continued: with one name for all bound variables, normal forms, equality and subtraction of recursive expressions are sound *)
Require Import List Lia Bool Arith.
From Verif Require Import M_Rust P_Rust M_RustExpr Prop_RustExpr.
Import ListNotations.
Open Scope nat_scope.

(** the keys of a BTreeMap are in strictly increasing order *)
Fixpoint sorted (m : list (nat * nat)) : Prop := match m with [] => True | (x, _) :: m => (forall k, In k (map fst m) -> x < k) /\ sorted m end.
(** all bound variables of [e] are [z], as those of the functions made by identity, plus and affine (count_expr.rs lines 233-258) *)
Fixpoint one_name (z : nat) (e : cexpr) : Prop :=
  match e with EV a => sorted (vs_vars a) | ER x f n b => x = z /\ one_name z f /\ one_name z n /\ one_name z b end.

Lemma sorted_nodup m : sorted m -> NoDup (map fst m).
Proof.
  induction m as [|(x, c) m IH]; intros H; [constructor|]. destruct H as (H1 & H2). cbn. constructor; [|now apply IH]. intros Hin. specialize (H1 _ Hin). lia.
Qed.
Lemma var_add_in x c k : forall m, In k (map fst (var_add x c m)) -> k = x \/ In k (map fst m).
Proof.
  induction m as [|(y, d) m IH]; cbn [var_add]; [cbn; intuition|]. destruct (x <? y); [cbn; intuition|]. destruct (Nat.eqb_spec x y); [cbn; intuition|].
  cbn [map In fst]. intros [H|H]; [auto|]. destruct (IH H); auto.
Qed.
Lemma var_add_sorted x c : forall m, sorted m -> sorted (var_add x c m).
Proof.
  induction m as [|(y, d) m IH]; intros H; cbn [var_add].
  - cbn. split; [intros k []|exact I].
  - destruct H as (H1 & H2). destruct (Nat.ltb_spec x y) as [Hl|Hl].
    + split; [|split; auto]. intros k [<- |Hk]; [exact Hl|]. specialize (H1 k Hk). lia.
    + destruct (Nat.eqb_spec x y); [split; auto|]. split; [|now apply IH]. intros k Hk. apply var_add_in in Hk. destruct Hk as [-> |Hk]; [lia|auto].
Qed.
Lemma vs_add_sorted a b : sorted (vs_vars a) -> sorted (vs_vars (vs_add a b)).
Proof.
  unfold vs_add. cbn [vs_vars]. generalize (vs_vars a). induction (vs_vars b) as [|(x, c) l IH]; intros m H; cbn [fold_left]; [exact H|]. apply IH. now apply var_add_sorted.
Qed.
Lemma filter_sorted f m : sorted m -> sorted (filter f m).
Proof.
  induction m as [|(x, c) m IH]; intros H; [exact I|]. destruct H as (H1 & H2). cbn [filter]. destruct (f (x, c)); [|now apply IH]. split; [|now apply IH].
  intros k Hk. apply H1. apply in_map_iff in Hk. destruct Hk as (p & <- & Hp). apply filter_In in Hp. apply in_map, Hp.
Qed.
Lemma remove_sorted x : forall m d m', sorted m -> var_remove x m = Some (d, m') -> sorted m' /\ incl (map fst m') (map fst m).
Proof.
  induction m as [|(y, c) m IH]; intros d m' H E; [discriminate|]. destruct H as (H1 & H2). cbn [var_remove] in E. destruct (Nat.eqb x y).
  - injection E as <- <-. split; [exact H2|]. intros k Hk. now right.
  - destruct (var_remove x m) as [(d0, m0)|]; [|discriminate]. injection E as <- <-. destruct (IH d0 m0 H2 eq_refl) as (S0 & I0). cbn [snd]. split.
    + split; [|exact S0]. intros k Hk. apply H1, I0, Hk.
    + intros k [Hk|Hk]; [now left|right; apply I0, Hk].
Qed.
Lemma vars_sub_sorted : forall other m d, sorted m -> vars_sub m other = Some d -> sorted d.
Proof.
  induction other as [|(x, c2) other IH]; intros m d H E; cbn [vars_sub] in E; [injection E as <-; exact H|].
  destruct (var_remove x m) as [(c1, m')|] eqn:Er; [|discriminate]. destruct (remove_sorted _ _ _ _ H Er) as (S' & _). destruct (c1 <? c2); [discriminate|].
  apply IH in E; [exact E|]. destruct (0 <? c1 - c2); [now apply var_add_sorted|exact S'].
Qed.

(** substitution for [z] alone *)
Definition only (z : nat) (s : esubst) : Prop := forall y e, es_get s y = Some e -> y = z /\ one_name z e.
Lemma only_without z s x : only z s -> only z (es_without s x).
Proof. intros H y e E. rewrite without_get in E. destruct (Nat.eqb y x); [discriminate|]. now apply H. Qed.
Lemma only_one z e : one_name z e -> only z [(z, e)].
Proof. intros H y f E. cbn [es_get] in E. destruct (Nat.eqb_spec y z) as [-> |]; [injection E as <-; auto|discriminate]. Qed.
Lemma only_free z : forall e s, only z s -> one_name z e -> capture_free s e.
Proof.
  induction e as [a|x f IHf n IHn b IHb]; intros s Hs He; cbn [capture_free].
  - split; [now apply sorted_nodup|]. intros x rx y ry E1 _ E2 _ Hne. exfalso. apply Hne. destruct (Hs _ _ E1) as (-> & _). destruct (Hs _ _ E2) as (-> & _). reflexivity.
  - destruct He as (-> & Hf & Hn & Hb). split; [|split; [|split]]; auto.
    + intros y e Hy E. exfalso. apply Hy. apply (Hs _ _ E).
    + apply IHf; [now apply only_without|exact Hf].
Qed.
Lemma subst_one_name z : forall e s e', only z s -> one_name z e -> ce_subst s e = Some e' -> one_name z e'.
Proof.
  induction e as [a|x f IHf n IHn b IHb]; intros s e' Hs He E; cbn [ce_subst] in E.
  - unfold sum_subst in E. destruct (add_recs (sub_recs s (vs_vars a)) (fold_left (sub_direct s) (vs_vars a) (vs_of (vs_const a)))) as [sum|] eqn:Ea; [|discriminate].
    assert (S0 : sorted (vs_vars (fold_left (sub_direct s) (vs_vars a) (vs_of (vs_const a))))).
    { assert (G : forall l acc, sorted (vs_vars acc) -> sorted (vs_vars (fold_left (sub_direct s) l acc))).
      { induction l as [|p l IH]; intros acc H; [exact H|]. cbn [fold_left]. apply IH. unfold sub_direct. destruct (es_get s (fst p)) as [[u|? ? ? ?]|]; auto; now apply vs_add_sorted. }
      apply G. exact I. }
    assert (S1 : sorted (vs_vars sum)).
    { clear E. revert Ea S0. generalize (fold_left (sub_direct s) (vs_vars a) (vs_of (vs_const a))). induction (sub_recs s (vs_vars a)) as [|((x, c), q) l IH]; intros acc Ea S0; cbn [add_recs] in Ea.
      - injection Ea as <-. exact S0.
      - destruct (has_key x acc); [discriminate|]. apply (IH _ Ea). now apply vs_add_sorted. }
    assert (Hr : forall p, In p (sub_recs s (vs_vars a)) -> rvar p = z /\ one_name z (snd p)) by (intros p Hp; apply recs_in in Hp; destruct Hp as (Hp & _); exact (Hs _ _ Hp)).
    assert (G : forall l e, (forall p, In p l -> rvar p = z /\ one_name z (snd p)) -> one_name z e -> wrap_recs l e = Some e' -> one_name z e').
    { induction l as [|((x, c), q) l IH]; intros e Hl He0 Ew; cbn [wrap_recs] in Ew; [injection Ew as <-; exact He0|].
      destruct (Hl (x, c, q) ltac:(now left)) as (Hx & Hq). cbn in Hx, Hq. destruct (rust_free x e); [|discriminate]. destruct (ce_eq_dec e (EV (vs_var x))); [injection Ew as <-; exact Hq|].
      apply (IH _ (fun p Hp => Hl p (or_intror Hp))) in Ew; [exact Ew|]. cbn. repeat split; auto. }
    exact (G _ (EV sum) Hr S1 E).
  - destruct He as (-> & Hf & Hn & Hb). destruct (ce_subst (es_without s z) f) as [f'|] eqn:Ef; [|discriminate].
    destruct (ce_subst s n) as [n'|] eqn:En; [|discriminate]. destruct (ce_subst s b) as [b'|] eqn:Eb; [|discriminate]. injection E as <-.
    cbn [one_name]. split; [reflexivity|]. split; [exact (IHf _ _ (only_without z s z Hs) Hf Ef)|]. split; eauto.
Qed.
Lemma subst_one z e v e' r : one_name z v -> one_name z e -> ce_subst [(z, v)] e = Some e' -> cev r e' = cev (upd r z (cev r v)) e.
Proof.
  intros Hv He E. rewrite (C76_subst e [(z, v)] e' r (only_free z e _ (only_one z v Hv) He) E). apply cev_ext. intros x. unfold env_es, upd. cbn [es_get].
  destruct (Nat.eqb x z); reflexivity.
Qed.

Theorem C76_normalize : forall z e e', one_name z e -> ce_normalize e = Some e' -> one_name z e' /\ forall r, cev r e' = cev r e.
Proof.
  intros z. induction e as [a|x f IHf n IHn b IHb]; intros e' He E; cbn [ce_normalize] in E.
  - injection E as <-. split; [cbn; now apply filter_sorted|]. intros r. apply normalize_ev.
  - destruct He as (-> & Hf & Hn & Hb). destruct (ce_normalize f) as [f'|]; [|discriminate]. destruct (ce_normalize n) as [n'|]; [|discriminate].
    destruct (ce_normalize b) as [b'|]; [|discriminate].
    destruct (IHf f' Hf eq_refl) as (Of & Vf). destruct (IHn n' Hn eq_refl) as (On & Vn). destruct (IHb b' Hb eq_refl) as (Ob & Vb).
    destruct (match n' with EV a => vs_is_zero a | _ => false end) eqn:Ez.
    { injection E as <-. split; [exact Ob|]. intros r. cbn [cev]. rewrite <- Vn. destruct n' as [a|]; [|discriminate]. cbn [cev]. rewrite (vs_zero_ev r a Ez). apply Vb. }
    destruct (ce_eq_dec f' (EV (vs_var z))) as [-> |_].
    { injection E as <-. split; [exact Ob|]. intros r. cbn [cev]. rewrite Vb. rewrite (iter_ext _ (fun v => v)).
      - induction (cev r n) as [|k IH]; [reflexivity|exact IH].
      - intros v. rewrite <- Vf. cbn [cev]. unfold ev, vs_var, upd. cbn [vs_const vs_vars vev]. rewrite Nat.eqb_refl. lia. }
    destruct (ce_eq_dec n' (EV (vs_of 1))) as [-> |_].
    { split; [exact (subst_one_name z f _ _ (only_one z b' Ob) Hf E)|]. intros r. rewrite (subst_one z f b' e' r Ob Hf E). cbn [cev]. rewrite <- Vn, <- Vb. reflexivity. }
    injection E as <-. split; [cbn; auto|]. intros r. cbn [cev]. rewrite Vn, Vb. apply iter_ext. intros v. apply Vf.
Qed.

Lemma iter_plus (F : nat -> nat) a b x : Nat.iter (a + b) F x = Nat.iter a F (Nat.iter b F x).
Proof. induction a as [|a IH]; [reflexivity|]. change (F (Nat.iter (a + b) F x) = F (Nat.iter a F (Nat.iter b F x))). now rewrite IH. Qed.

Definition sound_at (z fuel : nat) : Prop := forall a b, one_name z a -> one_name z b -> known_equal fuel a b = Some true -> forall r, cev r a = cev r b.
Lemma sub_sound z fuel a b d : sound_at z fuel -> one_name z a -> one_name z b -> ce_sub fuel a b = Some (Some d) ->
  one_name z d /\ forall r, cev r a = cev r d + cev r b.
Proof.
  intros Hs Ha Hb E. unfold ce_sub in E. destruct (ce_normalize a) as [a'|] eqn:Ea; [|discriminate]. destruct (ce_normalize b) as [b'|] eqn:Eb; [|discriminate].
  destruct (C76_normalize z a a' Ha Ea) as (Oa & Va). destruct (C76_normalize z b b' Hb Eb) as (Ob & Vb).
  destruct (known_equal fuel a' b') as [[|]|] eqn:Ek; [| |discriminate].
  - injection E as <-. split; [exact I|]. intros r. rewrite <- Va, <- Vb, (Hs a' b' Oa Ob Ek r). reflexivity.
  - destruct a' as [x|]; [|discriminate]. destruct b' as [y|]; [|discriminate]. injection E as E. unfold vs_checked_sub in E.
    destruct (Nat.ltb_spec (vs_const x) (vs_const y)); [discriminate|]. destruct (vars_sub (vs_vars x) (vs_vars y)) as [m|] eqn:Em; [|discriminate].
    injection E as <-. split; [exact (vars_sub_sorted _ _ _ Oa Em)|]. intros r. rewrite <- Va, <- Vb. cbn [cev]. unfold ev. cbn [vs_const vs_vars].
    rewrite (vars_sub_ev r _ _ _ Em). lia.
Qed.

Lemma equal_S fuel x f n c y g m d : known_equal (S fuel) (ER x f n c) (ER y g m d) =
  match ce_subst [(y, EV (vs_var x))] g with
  | None => None
  | Some g' =>
    match known_equal fuel f g' with
    | None => None
    | Some false => Some false
    | Some true =>
      match ce_sub fuel n m with
      | None => None
      | Some (Some diff) => match ce_normalize (ER x f diff c) with Some new => known_equal fuel new d | None => None end
      | Some None =>
        match ce_sub fuel m n with
        | None => None
        | Some (Some diff) => match ce_normalize (ER y g diff d) with Some new => known_equal fuel c new | None => None end
        | Some None => Some false
        end
      end
    end
  end.
Proof. reflexivity. Qed.

Theorem C76_equal : forall z fuel a b, one_name z a -> one_name z b -> known_equal fuel a b = Some true -> forall r, cev r a = cev r b.
Proof.
  intros z fuel. change (sound_at z fuel). induction fuel as [|fuel IH]; intros a b Ha Hb E; [discriminate|].
  destruct a as [x|x f n c], b as [y|y g m d]; try discriminate.
  - cbn in E. destruct (vs_eq_dec x y) as [-> |]; [reflexivity|discriminate].
  - rewrite equal_S in E. destruct Ha as (-> & Hf & Hn & Hc). destruct Hb as (-> & Hg & Hm & Hd).
    assert (Hz : one_name z (EV (vs_var z))) by (cbn; split; [intros k []|exact I]).
    destruct (ce_subst [(z, EV (vs_var z))] g) as [g'|] eqn:Eg; [|discriminate]. destruct (known_equal fuel f g') as [[|]|] eqn:Ef; [|discriminate|discriminate].
    assert (Og : one_name z g') by exact (subst_one_name z g _ _ (only_one z _ Hz) Hg Eg).
    assert (V : forall r, cev r f = cev r g).
    { intros r. rewrite (IH f g' Hf Og Ef r), (subst_one z g _ g' r Hz Hg Eg). apply cev_ext. intros v. unfold upd. destruct (Nat.eqb_spec v z) as [-> |]; [|reflexivity].
      cbn [cev]. unfold ev, vs_var. cbn [vs_const vs_vars vev]. lia. }
    intros r. cbn [cev]. set (F := fun v => cev (upd r z v) f). set (G := fun v => cev (upd r z v) g). assert (FG : forall v, F v = G v) by (intros v; apply V).
    destruct (ce_sub fuel n m) as [[diff|]|] eqn:Es; [| |discriminate].
    + destruct (sub_sound z fuel n m diff IH Hn Hm Es) as (Od & Vd). destruct (ce_normalize (ER z f diff c)) as [new|] eqn:En; [|discriminate].
      destruct (C76_normalize z (ER z f diff c) new) as (Ow & Vw); [cbn; auto|exact En|]. rewrite Vd, Nat.add_comm, iter_plus.
      change (Nat.iter (cev r diff) F (cev r c)) with (cev r (ER z f diff c)). rewrite <- Vw, (IH new d Ow Hd E r). now apply iter_ext.
    + destruct (ce_sub fuel m n) as [[diff|]|] eqn:Es2; [|discriminate|discriminate].
      destruct (sub_sound z fuel m n diff IH Hm Hn Es2) as (Od & Vd). destruct (ce_normalize (ER z g diff d)) as [new|] eqn:En; [|discriminate].
      destruct (C76_normalize z (ER z g diff d) new) as (Ow & Vw); [cbn; auto|exact En|]. rewrite Vd, Nat.add_comm, iter_plus.
      change (Nat.iter (cev r diff) G (cev r d)) with (cev r (ER z g diff d)). rewrite <- Vw, <- (IH c new Hc Ow E r). now apply iter_ext.
Qed.
Theorem C76_sub : forall z fuel a b d, one_name z a -> one_name z b -> ce_sub fuel a b = Some (Some d) -> forall r, cev r a = cev r d + cev r b.
Proof. intros z fuel a b d Ha Hb E. apply (sub_sound z fuel a b d (C76_equal z fuel) Ha Hb E). Qed.

(** [(λx. 2x)^(n+1) (3)] and [(λx. 2x)^n (6)] are found equal *)
Definition ex_a : cexpr := ER 0 (EV (VSum [(0, 2)] 0)) (EV (VSum [(2, 1)] 1)) (EV (vs_of 3)).
Definition ex_b : cexpr := ER 0 (EV (VSum [(0, 2)] 0)) (EV (vs_var 2)) (EV (vs_of 6)).
Example C76_equal_case : known_equal 9 ex_a ex_b = Some true /\ ce_sub 9 ex_a ex_b = Some (Some (EV (vs_of 0))) /\ forall r, cev r ex_a = cev r ex_b.
Proof.
  split; [reflexivity|]. split; [reflexivity|]. apply (C76_equal 0 9); [| |reflexivity]; cbn; repeat split; intros k [].
Qed.

Print Assumptions C76_normalize.
Print Assumptions C76_equal.
Print Assumptions C76_sub.
Print Assumptions C76_equal_case.
