(** * C76: substitution in recursive expressions keeps the value, if no variable is captured; equality and subtraction are not sound *)
Require Import List Lia Bool Arith.
From Verif Require Import M_Rust P_Rust M_RustExpr.
Import ListNotations.
Open Scope nat_scope.

(** the value of an expression (count_expr.rs lines 26-36) *)
Definition upd (r : env) (x v : nat) : env := fun y => if Nat.eqb y x then v else r y.
Fixpoint cev (r : env) (e : cexpr) : nat :=
  match e with EV a => ev r a | ER x f n b => Nat.iter (cev r n) (fun v => cev (upd r x v) f) (cev r b) end.
(** the values of the variables behind a substitution *)
Definition env_es (r : env) (s : esubst) : env := fun x => match es_get s x with Some e => cev r e | None => r x end.
(** [x] is free in [e] *)
Fixpoint is_free (x : nat) (e : cexpr) : bool :=
  match e with EV a => has_key x a | ER y f n b => ((negb (Nat.eqb x y) && is_free x f) || is_free x n || is_free x b)%bool end.
Definition is_rec (e : cexpr) : Prop := match e with ER _ _ _ _ => True | EV _ => False end.
(** no variable is captured: no bound variable is free in a substituted expression, and of two recursive expressions that are substituted neither
    has the variable of the other one free; the keys of a map are distinct *)
Fixpoint capture_free (s : esubst) (e : cexpr) : Prop :=
  match e with
  | EV a => NoDup (map fst (vs_vars a)) /\
    forall x rx y ry, es_get s x = Some rx -> is_rec rx -> es_get s y = Some ry -> is_rec ry -> x <> y -> is_free x ry = false
  | ER x f n b => (forall y e, y <> x -> es_get s y = Some e -> is_free x e = false) /\ capture_free (es_without s x) f /\ capture_free s n /\ capture_free s b
  end.

Lemma key_in x a : has_key x a = true <-> In x (map fst (vs_vars a)).
Proof.
  unfold has_key. rewrite existsb_exists. split; [intros (y & H & E); apply Nat.eqb_eq in E; now subst|]. intros H. exists x. split; [exact H|apply Nat.eqb_refl].
Qed.
Lemma vev_agree r r' m : (forall x, In x (map fst m) -> r x = r' x) -> vev r m = vev r' m.
Proof.
  induction m as [|(x, c) m IH]; intros H; [reflexivity|]. cbn [vev]. rewrite (H x) by now left. rewrite IH; [reflexivity|]. intros y Hy. apply H. now right.
Qed.
Lemma iter_ext (f g : nat -> nat) n : (forall v, f v = g v) -> forall b, Nat.iter n f b = Nat.iter n g b.
Proof. intros H b. induction n as [|n IH]; [reflexivity|]. change (f (Nat.iter n f b) = g (Nat.iter n g b)). now rewrite IH, H. Qed.
Lemma cev_agree : forall e r r', (forall x, is_free x e = true -> r x = r' x) -> cev r e = cev r' e.
Proof.
  induction e as [a|y f IHf n IHn b IHb]; intros r r' H; cbn [cev].
  - unfold ev. f_equal. apply vev_agree. intros x Hx. apply H. cbn [is_free]. now apply key_in.
  - rewrite (IHn r r'), (IHb r r').
    + apply iter_ext. intros v. apply IHf. intros x Hx. unfold upd. destruct (Nat.eqb_spec x y); [reflexivity|]. apply H. cbn [is_free].
      destruct (Nat.eqb_spec x y); [contradiction|]. now rewrite Hx.
    + intros x Hx. apply H. cbn [is_free]. rewrite Hx. apply orb_true_r.
    + intros x Hx. apply H. cbn [is_free]. rewrite Hx. now rewrite orb_true_r.
Qed.
Lemma cev_ext e r r' : (forall x, r x = r' x) -> cev r e = cev r' e.
Proof. intros H. apply cev_agree. auto. Qed.
Lemma cev_upd e r x v : is_free x e = false -> cev (upd r x v) e = cev r e.
Proof. intros H. apply cev_agree. intros y Hy. unfold upd. destruct (Nat.eqb_spec y x) as [-> |]; [congruence|reflexivity]. Qed.

(** sums *)
Fixpoint rget (recs : list (nat * nat * cexpr)) (y : nat) : option cexpr :=
  match recs with [] => None | (x, _, e) :: recs => if Nat.eqb y x then Some e else rget recs y end.
Definition env_recs (r : env) recs : env := fun y => match rget recs y with Some e => cev r e | None => r y end.
Definition rvar (p : nat * nat * cexpr) : nat := fst (fst p).

Lemma wrap_cev r : forall recs e e', NoDup (map rvar recs) ->
  (forall p q, In p recs -> In q recs -> rvar p <> rvar q -> is_free (rvar p) (snd q) = false) ->
  wrap_recs recs e = Some e' -> cev r e' = cev (env_recs r recs) e.
Proof.
  induction recs as [|((x, c), q) recs IH]; intros e e' Hnd Hcl E; cbn [wrap_recs] in E.
  - injection E as <-. reflexivity.
  - inversion Hnd as [|? ? Hx Hnd']; subst. destruct (rust_free x e); [|discriminate]. destruct (ce_eq_dec e (EV (vs_var x))) as [-> |_].
    + injection E as <-. cbn [cev]. unfold ev, vs_var, env_recs. cbn [vs_const vs_vars vev rget]. rewrite Nat.eqb_refl. lia.
    + rewrite (IH _ _ Hnd') with (2 := E) by (intros; apply Hcl; auto; now right). cbn [cev]. change (ev (env_recs r recs) (vs_of 1)) with 1. cbn [Nat.iter nat_rect].
      apply cev_ext. intros y. unfold upd.
      assert (V : env_recs r ((x, c, q) :: recs) y = if Nat.eqb y x then cev r q else env_recs r recs y) by (unfold env_recs; cbn [rget]; destruct (Nat.eqb y x); reflexivity).
      rewrite V. clear V. destruct (Nat.eqb_spec y x); [|reflexivity].
      apply cev_agree. intros z Hz. unfold env_recs. destruct (rget recs z) as [e1|] eqn:Ez; [|reflexivity]. exfalso.
      assert (Hin : exists p, In p recs /\ rvar p = z).
      { clear -Ez. induction recs as [|((u, k), w) recs IH]; cbn [rget] in Ez; [discriminate|]. destruct (Nat.eqb_spec z u) as [-> |].
        - exists (u, k, w). split; [now left|reflexivity].
        - destruct (IH Ez) as (p & Hp & Hv). exists p. split; [now right|exact Hv]. }
      destruct Hin as (p & Hp & Hv). assert (Hne : rvar p <> x) by (intros Hc; apply Hx; change (rvar (x, c, q)) with x; rewrite <- Hc; now apply in_map).
      assert (F : is_free (rvar p) q = false) by (apply (Hcl p (x, c, q)); [now right|now left|exact Hne]). rewrite Hv in F. congruence.
Qed.

Lemma var_add_keys x c k : forall m, In k (map fst m) -> In k (map fst (var_add x c m)).
Proof.
  induction m as [|(y, d) m IH]; intros H; [destruct H|]. cbn [var_add]. destruct (x <? y); [now right|]. destruct (Nat.eqb x y); [exact H|].
  destruct H as [H|H]; [now left|right; now apply IH].
Qed.
Lemma add_var_keys a x c k : In k (map fst (vs_vars a)) -> In k (map fst (vs_vars (vs_add a (vs_mul (vs_var x) c)))).
Proof. intros H. destruct c as [|[|c]]; cbn; [exact H| |]; now apply var_add_keys. Qed.
Fixpoint rsum (r : env) (recs : list (nat * nat * cexpr)) : nat := match recs with [] => 0 | (x, c, _) :: recs => c * r x + rsum r recs end.
Lemma add_recs_ev r : forall recs acc sum, add_recs recs acc = Some sum -> ev r sum = ev r acc + rsum r recs.
Proof.
  induction recs as [|((x, c), q) recs IH]; intros acc sum E; cbn [add_recs rsum] in *; [injection E as <-; lia|]. destruct (has_key x acc); [discriminate|].
  rewrite (IH _ _ E), vs_add_ev, vs_mul_ev. unfold ev at 2, vs_var. cbn [vs_const vs_vars vev]. lia.
Qed.
Lemma add_recs_keys : forall recs acc sum p, add_recs recs acc = Some sum -> In p recs -> ~ In (rvar p) (map fst (vs_vars acc)).
Proof.
  induction recs as [|((x, c), q) recs IH]; intros acc sum p E Hp; [destruct Hp|]. cbn [add_recs] in E. destruct (has_key x acc) eqn:Ek; [discriminate|].
  destruct Hp as [<- |Hp].
  - intros Hin. apply key_in in Hin. unfold rvar in Hin. cbn [fst] in Hin. congruence.
  - intros Hin. apply (IH _ _ _ E Hp). now apply add_var_keys.
Qed.

Lemma recs_in s vars p : In p (sub_recs s vars) -> es_get s (rvar p) = Some (snd p) /\ is_rec (snd p) /\ In (rvar p) (map fst vars).
Proof.
  unfold sub_recs. intros H. apply in_flat_map in H. destruct H as (x & Hx & H). destruct (es_get s (fst x)) as [[a|y f n b]|] eqn:E; try (now destruct H).
  destruct H as [<- |[]]. unfold rvar. cbn [fst snd is_rec]. split; [exact E|]. split; [exact I|]. now apply in_map.
Qed.
Lemma recs_nodup s : forall vars, NoDup (map fst vars) -> NoDup (map rvar (sub_recs s vars)).
Proof.
  induction vars as [|(x, c) vars IH]; intros H; [constructor|]. inversion H as [|? ? Hx H']; subst. unfold sub_recs. cbn [flat_map fst]. fold (sub_recs s vars).
  destruct (es_get s x) as [[a|y f n b]|]; cbn [app map]; auto. constructor; [|now apply IH]. intros Hin. apply in_map_iff in Hin. destruct Hin as (p & Hp & Hin).
  apply Hx. apply recs_in in Hin. destruct Hin as (_ & _ & Hin). rewrite Hp in Hin. exact Hin.
Qed.
Lemma rget_in s vars y e : rget (sub_recs s vars) y = Some e -> es_get s y = Some e /\ exists p, In p (sub_recs s vars) /\ rvar p = y.
Proof.
  intros H. assert (X : exists p, In p (sub_recs s vars) /\ rvar p = y /\ snd p = e).
  { revert H. generalize (sub_recs s vars). induction l as [|((u, k), w) l IH]; cbn [rget]; [discriminate|]. destruct (Nat.eqb_spec y u) as [-> |].
    - intros [= <-]. exists (u, k, w). split; [now left|auto].
    - intros E. destruct (IH E) as (p & Hp & Hv). exists p. split; [now right|exact Hv]. }
  destruct X as (p & Hp & <- & <-). split; [apply (recs_in _ _ _ Hp)|]. now exists p.
Qed.
Lemma rget_some recs p : In p recs -> rget recs (rvar p) <> None.
Proof.
  induction recs as [|((u, k), w) recs IH]; intros H; [destruct H|]. cbn [rget]. destruct (Nat.eqb_spec (rvar p) u); [discriminate|].
  destruct H as [<- |H]; [unfold rvar in *; cbn in *; congruence|now apply IH].
Qed.
Lemma direct_ev r s : forall vars acc,
  ev r (fold_left (sub_direct s) vars acc) + rsum (env_es r s) (sub_recs s vars) = ev r acc + vev (env_es r s) vars.
Proof.
  induction vars as [|(x, c) vars IH]; intros acc; cbn [fold_left vev]; [cbn; lia|]. unfold sub_recs. cbn [flat_map fst snd]. fold (sub_recs s vars).
  unfold sub_direct at 2. cbn [fst snd]. unfold env_es at 2. destruct (es_get s x) as [[a|y f n b]|] eqn:E; cbn [app].
  - rewrite IH, vs_add_ev, vs_mul_ev. cbn [cev]. lia.
  - cbn [rsum]. unfold env_es at 1. rewrite E. specialize (IH acc). lia.
  - rewrite IH, vs_add_ev, vs_mul_ev. unfold ev at 2, vs_var. cbn [vs_const vs_vars vev]. lia.
Qed.

Lemma sum_subst_cev r s a e' : capture_free s (EV a) -> sum_subst s a = Some e' -> cev r e' = ev (env_es r s) a.
Proof.
  intros (Hnd & Hcl) E. unfold sum_subst in E. set (recs := sub_recs s (vs_vars a)) in *. set (acc := fold_left (sub_direct s) (vs_vars a) (vs_of (vs_const a))) in *.
  destruct (add_recs recs acc) as [sum|] eqn:Ea; [|discriminate].
  rewrite (wrap_cev r recs (EV sum) e'); [|now apply recs_nodup| |exact E].
  - cbn [cev]. rewrite (add_recs_ev _ _ _ _ Ea). pose proof (direct_ev r s (vs_vars a) (vs_of (vs_const a))) as D. fold acc recs in D.
    assert (E1 : ev (env_recs r recs) acc = ev r acc).
    { unfold ev. f_equal. apply vev_agree. intros x Hx. unfold env_recs. destruct (rget recs x) as [e0|] eqn:Eg; [|reflexivity]. exfalso.
      destruct (rget_in _ _ _ _ Eg) as (_ & p & Hp & <-). exact (add_recs_keys _ _ _ _ Ea Hp Hx). }
    assert (E2 : rsum (env_recs r recs) recs = rsum (env_es r s) recs).
    { assert (G : forall l, incl l recs -> rsum (env_recs r recs) l = rsum (env_es r s) l).
      { induction l as [|((x, c), q) l IH]; intros Hi; [reflexivity|]. cbn [rsum]. rewrite IH by (intros p Hp; apply Hi; now right). f_equal. f_equal.
        assert (Hp : In (x, c, q) recs) by (apply Hi; now left). unfold env_recs, env_es. pose proof (rget_some recs _ Hp) as Hs. unfold rvar in Hs. cbn [fst] in Hs.
        destruct (rget recs x) as [e0|] eqn:Eg; [|congruence]. destruct (rget_in _ _ _ _ Eg) as (-> & _). reflexivity. }
      apply G, incl_refl. }
    rewrite E1, E2, D. unfold ev, vs_of. cbn [vs_const vs_vars vev]. lia.
  - intros p q Hp Hq Hne. destruct (recs_in _ _ _ Hp) as (G1 & R1 & _). destruct (recs_in _ _ _ Hq) as (G2 & R2 & _). exact (Hcl _ _ _ _ G1 R1 G2 R2 Hne).
Qed.

Lemma without_get s x y : es_get (es_without s x) y = if Nat.eqb y x then None else es_get s y.
Proof.
  induction s as [|(z, e) s IH]; cbn [es_without filter es_get fst]; [now destruct (Nat.eqb y x)|]. fold (es_without s x).
  destruct (Nat.eqb_spec z x) as [-> |Hz]; cbn [negb].
  - rewrite IH. destruct (Nat.eqb_spec y x); reflexivity.
  - cbn [es_get]. rewrite IH. destruct (Nat.eqb_spec y z) as [-> |]; [|reflexivity]. destruct (Nat.eqb_spec z x); [contradiction|reflexivity].
Qed.

(** the value of the result is the value under the substituted assignment *)
Theorem C76_subst : forall e s e' r, capture_free s e -> ce_subst s e = Some e' -> cev r e' = cev (env_es r s) e.
Proof.
  induction e as [a|x f IHf n IHn b IHb]; intros s e' r Hc E; cbn [ce_subst] in E.
  - now apply sum_subst_cev.
  - destruct Hc as (Hx & Hf & Hn & Hb). destruct (ce_subst (es_without s x) f) as [f'|] eqn:Ef; [|discriminate].
    destruct (ce_subst s n) as [n'|] eqn:En; [|discriminate]. destruct (ce_subst s b) as [b'|] eqn:Eb; [|discriminate]. injection E as <-. cbn [cev].
    rewrite (IHn _ _ r Hn En), (IHb _ _ r Hb Eb). apply iter_ext. intros v. rewrite (IHf _ _ (upd r x v) Hf Ef). apply cev_ext. intros y.
    unfold env_es at 1. rewrite without_get. unfold upd at 3. destruct (Nat.eqb_spec y x) as [-> |Hy].
    + unfold upd. now rewrite Nat.eqb_refl.
    + unfold env_es. destruct (es_get s y) as [e|] eqn:Ey; [apply cev_upd; exact (Hx y e Hy Ey)|]. unfold upd. destruct (Nat.eqb_spec y x); [contradiction|reflexivity].
Qed.

(** with capture it is wrong: [(λx. x + y)^1 (1)] with [x] for [y] becomes [(λx. 2x)^1 (1)] *)
Theorem C76_capture_refuted : exists s e e' r, ce_subst s e = Some e' /\ cev r e' <> cev (env_es r s) e.
Proof.
  exists [(1, EV (vs_var 0))], (ER 0 (EV (VSum [(0, 1); (1, 1)] 0)) (EV (vs_of 1)) (EV (vs_of 1))), (ER 0 (EV (VSum [(0, 2)] 0)) (EV (vs_of 1)) (EV (vs_of 1))), (fun _ => 0).
  split; [reflexivity|cbn; discriminate].
Qed.
(** [(λx. 2x)^z (1)] and [(λy. x + y)^z (1)] are taken for equal, and their difference for zero: the validator matches blocks of different length *)
Definition twice : cexpr := ER 0 (EV (VSum [(0, 2)] 0)) (EV (vs_var 2)) (EV (vs_of 1)).
Definition plus_x : cexpr := ER 1 (EV (VSum [(0, 1); (1, 1)] 0)) (EV (vs_var 2)) (EV (vs_of 1)).
Theorem C76_equal_refuted : exists a b r, known_equal 9 a b = Some true /\ ce_sub 9 a b = Some (Some (EV (vs_of 0))) /\ cev r a <> cev r b.
Proof. exists twice, plus_x, (fun x => if Nat.eqb x 2 then 1 else 0). repeat split; cbn; discriminate. Qed.

(** [(λx. 2x)^n (y)] with [n + 1] for [n] and [(λx. x + 3)^n (1)] for [y] *)
Definition ex_grow : cexpr := ER 3 (EV (VSum [(3, 2)] 0)) (EV (vs_var 0)) (EV (vs_var 1)).
Definition ex_sub : esubst := [(0, EV (VSum [(0, 1)] 1)); (1, ER 3 (EV (VSum [(3, 1)] 3)) (EV (vs_var 0)) (EV (vs_of 1)))].
Example C76_case : exists e', ce_subst ex_sub ex_grow = Some e' /\ cev (fun _ => 2) e' = 56 /\ cev (env_es (fun _ => 2) ex_sub) ex_grow = 56.
Proof. eexists. split; [reflexivity|]. split; reflexivity. Qed.
Example C76_case_clean : capture_free ex_sub ex_grow.
Proof.
  assert (H : forall y e, es_get ex_sub y = Some e -> is_free 3 e = false).
  { intros y e. cbn [ex_sub es_get]. destruct (Nat.eqb y 0); [intros [= <-]; reflexivity|]. destruct (Nat.eqb y 1); [intros [= <-]; reflexivity|discriminate]. }
  assert (G : forall x rx, es_get ex_sub x = Some rx -> is_rec rx -> x = 1).
  { intros x rx. cbn [ex_sub es_get]. destruct (Nat.eqb x 0); [intros [= <-] []|]. destruct (Nat.eqb_spec x 1); [auto|discriminate]. }
  repeat split; try (cbn; repeat constructor; intuition discriminate); try (intros y e _; apply H);
    intros x rx y ry E1 R1 E2 R2 Hne; exfalso; apply Hne; rewrite (G x rx E1 R1); symmetry; exact (G y ry E2 R2).
Qed.

Print Assumptions C76_subst.
Print Assumptions C76_capture_refuted.
Print Assumptions C76_equal_refuted.
Print Assumptions C76_case.
Print Assumptions C76_case_clean.
