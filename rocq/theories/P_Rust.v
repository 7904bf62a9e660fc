(** * The Rust validator: what counts, half tapes and configurations mean, and that its operations keep the meaning *)
Require Import ZArith List Lia Bool Arith Relations.
From Verif Require Import Spec_TM M_Turing_Machine M_Rust.
Import ListNotations.
Open Scope nat_scope.

Definition env := nat -> nat.
Fixpoint vev (r : env) (m : list (nat * nat)) : nat := match m with [] => 0 | (x, c) :: m => c * r x + vev r m end.
Definition ev (r : env) (e : vsum) : nat := vs_const e + vev r (vs_vars e).

Lemma var_add_ev r x c m : vev r (var_add x c m) = c * r x + vev r m.
Proof.
  induction m as [|(y, d) m IH]; cbn [var_add vev]; [lia|]. destruct (x <? y); [reflexivity|]. destruct (Nat.eqb_spec x y) as [-> |]; cbn [vev]; [lia|].
  rewrite IH. lia.
Qed.
Lemma vs_add_ev r a b : ev r (vs_add a b) = ev r a + ev r b.
Proof.
  unfold ev, vs_add. cbn [vs_const vs_vars].
  assert (H : forall l m, vev r (fold_left (fun m x => var_add (fst x) (snd x) m) l m) = vev r m + vev r l).
  { induction l as [|(x, c) l IH]; intros m; cbn [fold_left vev]; [lia|]. rewrite IH, var_add_ev. cbn [fst snd]. lia. }
  rewrite H. lia.
Qed.
Lemma vs_mul_ev r a n : ev r (vs_mul a n) = ev r a * n.
Proof.
  unfold vs_mul. destruct n as [|[|n]]; [cbn; lia|lia|]. unfold ev. cbn [vs_const vs_vars].
  assert (H : vev r (map (fun x => (fst x, snd x * S (S n))) (vs_vars a)) = vev r (vs_vars a) * S (S n)).
  { induction (vs_vars a) as [|(x, c) m IH]; cbn [map vev fst snd]; [reflexivity|]. rewrite IH. lia. }
  rewrite H. lia.
Qed.
Lemma vs_zero_ev r a : vs_is_zero a = true -> ev r a = 0.
Proof. unfold vs_is_zero, ev. intros H. apply andb_true_iff in H. destruct H as (H1 & H2). apply Nat.eqb_eq in H1. destruct (vs_vars a); [cbn; lia|discriminate]. Qed.
Lemma vs_decr_ev r a b : vs_decrement a = Some b -> ev r a = S (ev r b).
Proof. unfold vs_decrement, ev. destruct (vs_const a); [discriminate|]. intros [= <-]. cbn. lia. Qed.
Definition env_subst (r : env) (s : vsubst) : env := fun x => match subst_get s x with Some e => ev r e | None => r x end.
Lemma vs_subst_ev r s a : ev r (vs_subst s a) = ev (env_subst r s) a.
Proof.
  unfold vs_subst. assert (H : forall l e, ev r (fold_left (fun q x => vs_add q (vs_mul (match subst_get s (fst x) with Some e => e | None => vs_var (fst x) end) (snd x))) l e)
    = ev r e + vev (env_subst r s) l).
  { induction l as [|(x, c) l IH]; intros e; cbn [fold_left vev]; [lia|]. rewrite IH, vs_add_ev, vs_mul_ev. cbn [fst snd]. unfold env_subst at 2.
    destruct (subst_get s x) as [e'|]; [lia|]. unfold ev at 2, vs_var. cbn [vs_const vs_vars vev]. lia. }
  rewrite H. unfold ev, vs_of. cbn [vs_const vs_vars vev]. lia.
Qed.
Lemma remove_ev r x : forall m d m', var_remove x m = Some (d, m') -> vev r m = d * r x + vev r m'.
Proof.
  induction m as [|(y, c) m IH]; intros d m' E; [discriminate|]. cbn [var_remove] in E. destruct (Nat.eqb_spec x y) as [-> |].
  - injection E as <- <-. reflexivity.
  - destruct (var_remove x m) as [(d0, m0)|]; [|discriminate]. injection E as <- <-. cbn [vev]. rewrite (IH d0 m0 eq_refl). lia.
Qed.
Lemma vars_sub_ev r : forall other m d, vars_sub m other = Some d -> vev r m = vev r d + vev r other.
Proof.
  induction other as [|(x, c2) other IH]; intros m d E; cbn [vars_sub] in E; [injection E as <-; cbn; lia|].
  destruct (var_remove x m) as [(c1, m')|] eqn:Er; [|discriminate]. rewrite (remove_ev r _ _ _ _ Er). destruct (Nat.ltb_spec c1 c2); [discriminate|].
  apply IH in E. cbn [vev].
  assert (X : vev r (if 0 <? c1 - c2 then var_add x (c1 - c2) m' else m') = (c1 - c2) * r x + vev r m').
  { destruct (Nat.ltb_spec 0 (c1 - c2)); [apply var_add_ev|]. replace (c1 - c2) with 0 by lia. lia. }
  rewrite X in E. assert (c1 * r x = (c1 - c2) * r x + c2 * r x) by (rewrite <- Nat.mul_add_distr_r; f_equal; lia). lia.
Qed.
Lemma normalize_ev r a : ev r (vs_normalize a) = ev r a.
Proof.
  unfold ev, vs_normalize. cbn [vs_const vs_vars]. f_equal. induction (vs_vars a) as [|(x, c) m IH]; [reflexivity|]. cbn [filter snd].
  destruct (Nat.eqb_spec c 0) as [-> |]; cbn [negb vev]; rewrite IH; lia.
Qed.
Lemma ce_sub_ev r a b d : ce_checked_sub a b = Some d -> ev r a = ev r d + ev r b.
Proof.
  unfold ce_checked_sub. destruct (vs_eq_dec (vs_normalize a) (vs_normalize b)) as [E|_].
  - intros [= <-]. rewrite <- (normalize_ev r a), <- (normalize_ev r b), E. reflexivity.
  - rewrite <- (normalize_ev r a), <- (normalize_ev r b). generalize (vs_normalize a) (vs_normalize b). intros x y. unfold vs_checked_sub.
    destruct (Nat.ltb_spec (vs_const x) (vs_const y)); [discriminate|]. destruct (vars_sub (vs_vars x) (vs_vars y)) as [m|] eqn:E; [|discriminate].
    intros [= <-]. unfold ev. cbn [vs_const vs_vars]. rewrite (vars_sub_ev r _ _ _ E). lia.
Qed.

(** ** half tapes: the symbols from the head on, when [s] follows behind the half tape *)

Definition stream := nat -> nat.
Definition same (a b : stream) : Prop := forall i, a i = b i.
Fixpoint pre (l : list nat) (s : stream) : stream := match l with [] => s | a :: l => fun i => match i with O => a | S i => pre l s i end end.
Definition cyc (w : list nat) : stream := fun i => nth (i mod length w) w 0.
Fixpoint wpow (w : list nat) (k : nat) : list nat := match k with O => [] | S k => w ++ wpow w k end.
Definition blk (r : env) (b : block) (s : stream) : stream :=
  match b_symbols b with
  | [] => s
  | _ => match b_rep b with Fin e => pre (wpow (b_symbols b) (ev r e)) s | Inf => cyc (b_symbols b) end
  end.
Fixpoint den (r : env) (h : half) (s : stream) : stream := match h with [] => s | b :: h => blk r b (den r h s) end.

Lemma same_refl a : same a a. Proof. intros i. reflexivity. Qed.
Lemma same_sym a b : same a b -> same b a. Proof. intros H i. now rewrite H. Qed.
Lemma same_trans a b c : same a b -> same b c -> same a c. Proof. intros H1 H2 i. now rewrite H1. Qed.
Lemma pre_ext l s s' : same s s' -> same (pre l s) (pre l s').
Proof. intros H. induction l as [|a l IH]; [exact H|]. intros [|i]; [reflexivity|apply IH]. Qed.
Lemma pre_app a b s : same (pre (a ++ b) s) (pre a (pre b s)).
Proof. induction a as [|x a IH]; [apply same_refl|]. intros [|i]; [reflexivity|apply IH]. Qed.
Lemma pre_nth l s i : pre l s i = if i <? length l then nth i l 0 else s (i - length l).
Proof.
  revert i. induction l as [|a l IH]; intros i; cbn [pre length]; [now rewrite Nat.sub_0_r|]. destruct i as [|i]; [reflexivity|]. rewrite IH.
  change (S i <? S (length l)) with (i <? length l). reflexivity.
Qed.
Lemma pre_cyc w : w <> [] -> same (pre w (cyc w)) (cyc w).
Proof.
  intros Hw i. assert (Hl : length w <> 0) by (destruct w; [congruence|cbn; lia]). rewrite pre_nth. unfold cyc. destruct (Nat.ltb_spec i (length w)) as [H|H].
  - now rewrite Nat.mod_small.
  - f_equal. replace i with (i - length w + 1 * length w) at 2 by lia. now rewrite Nat.mod_add.
Qed.
Lemma wpow_cyc w k : w <> [] -> same (pre (wpow w k) (cyc w)) (cyc w).
Proof.
  intros Hw. induction k as [|k IH]; [apply same_refl|]. cbn [wpow]. eapply same_trans; [apply pre_app|]. eapply same_trans; [apply pre_ext, IH|]. now apply pre_cyc.
Qed.
Lemma wpow_add w a b : wpow w (a + b) = wpow w a ++ wpow w b.
Proof. induction a as [|a IH]; [reflexivity|]. cbn [Nat.add wpow]. now rewrite IH, app_assoc. Qed.
Lemma blk_ext r b s s' : same s s' -> same (blk r b s) (blk r b s').
Proof. intros H. unfold blk. destruct (b_symbols b); [exact H|]. destruct (b_rep b); [now apply pre_ext|apply same_refl]. Qed.
Lemma den_ext r h s s' : same s s' -> same (den r h s) (den r h s').
Proof. intros H. induction h as [|b h IH]; [exact H|]. cbn [den]. now apply blk_ext. Qed.
Lemma den_app r a b s : den r (a ++ b) s = den r a (den r b s).
Proof. induction a as [|x a IH]; [reflexivity|]. cbn [app den]. now rewrite IH. Qed.
Lemma blk_zero r b s : count_is_zero (b_rep b) = true -> blk r b s = s.
Proof. unfold blk. destruct (b_rep b) as [e|]; [|discriminate]. cbn [count_is_zero]. intros H. rewrite (vs_zero_ev r e H). destruct (b_symbols b); reflexivity. Qed.

(** two blocks with the same symbols *)
Lemma blk_add r w near far s : same (blk r (Block w (count_add far near)) s) (blk r (Block w near) (blk r (Block w far) s)).
Proof.
  unfold blk. cbn [b_symbols b_rep]. destruct w as [|a w]; [apply same_refl|]. set (v := a :: w). assert (Hv : v <> []) by discriminate.
  destruct far as [x|], near as [y|]; cbn [count_add].
  - rewrite vs_add_ev, Nat.add_comm, wpow_add. apply pre_app.
  - apply same_refl.
  - apply same_sym. now apply wpow_cyc.
  - apply same_refl.
Qed.
Lemma blk_sub r w a b d s : count_sub a b = Some d -> same (blk r (Block w a) s) (blk r (Block w b) (blk r (Block w d) s)).
Proof.
  unfold blk. cbn [b_symbols b_rep]. destruct w as [|x w]; [intros _; apply same_refl|]. set (v := x :: w). assert (Hv : v <> []) by discriminate.
  destruct a as [a|], b as [b|]; cbn [count_sub]; intros E.
  - destruct (ce_checked_sub a b) as [e|] eqn:Ee; [|discriminate]. injection E as <-. rewrite (ce_sub_ev r _ _ _ Ee), Nat.add_comm, wpow_add. apply pre_app.
  - discriminate.
  - injection E as <-. apply same_sym. now apply wpow_cyc.
  - injection E as <-. apply same_refl.
Qed.
Lemma sym_eqb_eq a b : sym_eqb a b = true -> a = b.
Proof. unfold sym_eqb. destruct (list_eq_dec Nat.eq_dec a b); [auto|discriminate]. Qed.

Lemma norm_push_den r b acc s : same (den r (norm_push b acc) s) (blk r b (den r acc s)).
Proof.
  unfold norm_push. destruct (match b_symbols b with [] => true | _ => false end || count_is_zero (b_rep b))%bool eqn:E.
  - apply orb_true_iff in E. destruct E as [E|E]; [|rewrite (blk_zero r b _ E); apply same_refl]. unfold blk. destruct (b_symbols b); [apply same_refl|discriminate].
  - destruct acc as [|last acc]; [apply same_refl|]. destruct (sym_eqb (b_symbols last) (b_symbols b)) eqn:Es; [|apply same_refl].
    apply sym_eqb_eq in Es. cbn [den]. destruct last as [w far], b as [w' near]. cbn [b_symbols b_rep] in *. subst w'. apply blk_add.
Qed.
Lemma normalize_den r h s : same (den r (normalize h) s) (den r h s).
Proof.
  induction h as [|b h IH]; [apply same_refl|]. cbn [normalize fold_right]. eapply same_trans; [apply norm_push_den|]. cbn [den]. now apply blk_ext.
Qed.

Lemma pop_den r h a h' s : pop_symbol h = Some (a, h') -> same (den r h s) (pre [a] (den r h' s)).
Proof.
  unfold pop_symbol. intros E. eapply same_trans; [apply same_sym, normalize_den|]. destruct (normalize h) as [|b h0]; [discriminate|].
  destruct b as [w rep]. cbn [b_rep b_symbols] in E. destruct (count_decrement rep) as [decr|] eqn:Ed; [|discriminate]. destruct w as [|x w]; [discriminate|].
  injection E as -> <-. cbn [den]. set (v := a :: w) in *.
  assert (H1 : same (blk r (Block v rep) (den r h0 s)) (pre v (den r (if count_is_zero decr then h0 else Block v decr :: h0) s))).
  { assert (H2 : same (den r (if count_is_zero decr then h0 else Block v decr :: h0) s) (blk r (Block v decr) (den r h0 s))).
    { destruct (count_is_zero decr) eqn:Ez; [|apply same_refl]. rewrite (blk_zero r (Block v decr)) by exact Ez. apply same_refl. }
    eapply same_trans; [|apply pre_ext, same_sym, H2]. unfold blk. cbn [b_symbols b_rep]. subst v. cbv iota. destruct rep as [e|]; cbn [count_decrement] in Ed.
    - destruct (vs_decrement e) as [e'|] eqn:Ev; [|discriminate]. injection Ed as <-. rewrite (vs_decr_ev r _ _ Ev). cbn [wpow]. apply pre_app.
    - injection Ed as <-. apply same_sym, pre_cyc. discriminate. }
  eapply same_trans; [exact H1|]. set (h1 := if count_is_zero decr then h0 else Block v decr :: h0).
  intros [|i]; [reflexivity|]. subst v. cbn [pre]. destruct w as [|y w]; [reflexivity|]. cbn [den]. unfold blk, one_block. cbn [b_symbols b_rep].
  change (ev r (vs_of 1)) with 1. cbn [wpow]. now rewrite app_nil_r.
Qed.

Lemma strip_den r : forall fuel curr sub rest s, strip fuel curr sub = Some rest -> same (den r curr s) (den r sub (den r rest s)).
Proof.
  induction fuel as [|fuel IH]; intros curr sub rest s E; destruct sub as [|b sub]; cbn [strip] in E; try (injection E as <-; apply same_refl); [discriminate|].
  destruct curr as [|ct curr]; [discriminate|]. destruct (sym_eqb (b_symbols ct) (b_symbols b)) eqn:Es.
  - apply sym_eqb_eq in Es. destruct (count_sub (b_rep ct) (b_rep b)) as [diff|] eqn:Ed; [|discriminate]. apply (IH _ _ _ s) in E.
    destruct ct as [w a], b as [w' c]. cbn [b_symbols b_rep] in *. subst w'. cbn [den]. eapply same_trans; [apply (blk_sub r w a c diff); exact Ed|].
    apply blk_ext. eapply same_trans; [|exact E]. destruct (count_is_zero diff) eqn:Ez; [|apply same_refl]. rewrite (blk_zero r (Block w diff)) by exact Ez. apply same_refl.
  - destruct (pop_symbol (ct :: curr)) as [(l, c)|] eqn:Ec; [|discriminate]. destruct (pop_symbol (b :: sub)) as [(x, u)|] eqn:Eu; [|discriminate].
    destruct (Nat.eqb_spec l x) as [-> |]; [|discriminate]. apply (IH _ _ _ s) in E. eapply same_trans; [apply (pop_den r _ _ _ s Ec)|].
    eapply same_trans; [|apply same_sym, (pop_den r _ _ _ (den r rest s) Eu)]. apply pre_ext, E.
Qed.
Lemma replace_den r fuel h old new h' : half_replace fuel h old new = Some h' -> exists rest, h' = new ++ rest /\
  (forall s, same (den r h s) (den r old (den r rest s))).
Proof.
  unfold half_replace. destruct (strip fuel (normalize h) (normalize old)) as [rest|] eqn:E; [|discriminate]. intros [= <-]. exists rest. split; [reflexivity|].
  intros s. eapply same_trans; [apply same_sym, normalize_den|]. eapply same_trans; [apply (strip_den r _ _ _ _ s E)|]. apply normalize_den.
Qed.
Lemma equivalent_den r fuel h other s : half_equivalent fuel h other = true -> same (den r h s) (den r other s).
Proof.
  unfold half_equivalent. destruct (half_replace fuel h other []) as [[|]|] eqn:E; try discriminate. intros _.
  destruct (replace_den r _ _ _ _ _ E) as (rest & Er & H). destruct rest; [|discriminate]. apply (H s).
Qed.
Lemma ev_ext r r' e : (forall x, r x = r' x) -> ev r e = ev r' e.
Proof. intros H. unfold ev. f_equal. induction (vs_vars e) as [|(x, c) m IH]; [reflexivity|]. cbn [vev]. now rewrite H, IH. Qed.
Lemma den_env r r' h s : (forall x, r x = r' x) -> den r h s = den r' h s.
Proof.
  intros H. induction h as [|b h IH]; [reflexivity|]. cbn [den]. rewrite IH. unfold blk. destruct (b_symbols b); [reflexivity|]. destruct (b_rep b); [|reflexivity].
  now rewrite (ev_ext r r' e H).
Qed.
Lemma subst_den r sub h s : den r (half_subst sub h) s = den (env_subst r sub) h s.
Proof.
  induction h as [|b h IH]; [reflexivity|]. cbn [half_subst map den]. fold (half_subst sub h). rewrite IH. unfold blk. cbn [b_symbols b_rep].
  destruct (b_symbols b); [reflexivity|]. destruct (b_rep b); cbn [count_subst]; [now rewrite vs_subst_ev|reflexivity].
Qed.
