(** * C75: every rule that the Rust validator accepts without [Admit] is true of the machine, for all values of the variables *)
Require Import ZArith List Lia Bool Arith.
From Verif Require Import Spec_TM M_Turing_Machine M_Rust P_Rust.
Import ListNotations.
Open Scope nat_scope.

(** the machine of a Rust table: an undefined cell, or a cell outside the table, stops without an explicit halt *)
Definition rust_table (tm : rtm) : table := fun q a =>
  match rs_trans tm q a with
  | Some (RTrans w d (SRun q')) => Go w d q'
  | Some (RTrans w d SHalt) => Stop w d true
  | _ => Stop 1 R false
  end.

(** [run M (q, t, p) n (q', t', p')]: [n] transitions, the last of which may be an explicit halt *)
Definition rmove (M : table) (c : sstate * (Z -> nat) * Z) : option (sstate * (Z -> nat) * Z) :=
  let '(q, t, p) := c in
  match q with
  | SRun q => match M q (t p) with
              | Go w d q' => Some (SRun q', put t p w, (p + dz d)%Z)
              | Stop w d true => Some (SHalt, put t p w, (p + dz d)%Z)
              | Stop _ _ false => None
              end
  | SHalt => None
  end.
Inductive run (M : table) : sstate * (Z -> nat) * Z -> nat -> sstate * (Z -> nat) * Z -> Prop :=
| run_nil c : run M c 0 c
| run_cons c c' n c'' : rmove M c = Some c' -> run M c' n c'' -> run M c (S n) c''.

(** [place r c sl sr t p]: on tape [t] with the head on [p] stands the configuration [c], its variables having the values [r], and beyond its
    left and right ends stand [sl] and [sr] *)
Definition place (r : env) (c : rconfig) (sl sr : stream) (t : Z -> nat) (p : Z) : Prop :=
  match r_dir c with
  | R => (forall i, t (p + Z.of_nat i)%Z = den r (r_right c) sr i) /\ (forall i, t (p - 1 - Z.of_nat i)%Z = den r (r_left c) sl i)
  | L => (forall i, t (p - Z.of_nat i)%Z = den r (r_left c) sl i) /\ (forall i, t (p + 1 + Z.of_nat i)%Z = den r (r_right c) sr i)
  end.

(** whatever stands beyond the ends, the machine gets from [c] to [c'] and leaves what stands beyond the ends as it was *)
Definition goes (M : table) (r : env) (c c' : rconfig) : Prop :=
  forall sl sr t p, place r c sl sr t p -> exists n t' p', run M (r_state c, t, p) n (r_state c', t', p') /\ place r c' sl sr t' p'.
Definition rule_true (M : table) (u : rule) : Prop := forall r, goes M r (ru_init u) (ru_final u).

Definition no_admit_steps (l : list proof_step) : Prop := ~ In Admit l.
Definition no_admit (u : rule) : Prop :=
  match ru_proof u with Simple p => no_admit_steps p | Inductive_proof b s => no_admit_steps b /\ no_admit_steps s end.

Lemma run_trans M a n b : run M a n b -> forall m c, run M b m c -> run M a (n + m) c.
Proof. induction 1 as [|a b n c Hm H IH]; intros m d H2; [exact H2|]. cbn. eapply run_cons; [exact Hm|]. now apply IH. Qed.
Lemma goes_refl M r c : goes M r c c.
Proof. intros sl sr t p H. exists 0, t, p. split; [constructor|exact H]. Qed.
Lemma goes_trans M r a b c : goes M r a b -> goes M r b c -> goes M r a c.
Proof.
  intros H1 H2 sl sr t p Hp. destruct (H1 _ _ _ _ Hp) as (n & t1 & p1 & R1 & P1). destruct (H2 _ _ _ _ P1) as (m & t2 & p2 & R2 & P2).
  exists (n + m), t2, p2. split; [exact (run_trans _ _ _ _ R1 _ _ R2)|exact P2].
Qed.

Lemma place_ext r r' c c' sl sr sl' sr' t p : r_dir c = r_dir c' -> same (den r (r_left c) sl) (den r' (r_left c') sl') ->
  same (den r (r_right c) sr) (den r' (r_right c') sr') -> place r c sl sr t p -> place r' c' sl' sr' t p.
Proof.
  unfold place. intros <- Hl Hr. destruct (r_dir c); intros (H1 & H2); (split; intros i; [rewrite H1|rewrite H2]); auto.
Qed.

Lemma step_goes tm r c c' : conf_step tm c = Some c' -> goes (rust_table tm) r c c'.
Proof.
  unfold conf_step. intros E sl sr t p Hp.
  destruct (pop_symbol (match r_dir c with R => r_right c | L => r_left c end)) as [(a, front)|] eqn:Ep; [|discriminate].
  destruct (r_state c) as [q|] eqn:Eq; [|discriminate]. destruct (rs_trans tm q a) as [[|w d q']|] eqn:Et; try discriminate.
  set (l := match r_dir c with R => r_left c | L => front end) in *. set (x := match r_dir c with R => front | L => r_right c end) in *.
  assert (V : t p = a /\ (forall i, t (p - 1 - Z.of_nat i)%Z = den r l sl i) /\ (forall i, t (p + 1 + Z.of_nat i)%Z = den r x sr i)).
  { unfold place in Hp. subst l x. destruct (r_dir c).
    - destruct Hp as (H1 & H2). pose proof (pop_den r _ _ _ sl Ep) as D. split; [|split; [|exact H2]].
      + specialize (H1 0). rewrite (D 0) in H1. cbn [pre] in H1. rewrite <- H1. f_equal; lia.
      + intros i. specialize (H1 (S i)). rewrite (D (S i)) in H1. cbn [pre] in H1. rewrite <- H1. f_equal; lia.
    - destruct Hp as (H1 & H2). pose proof (pop_den r _ _ _ sr Ep) as D. split; [|split; [exact H2|]].
      + specialize (H1 0). rewrite (D 0) in H1. cbn [pre] in H1. rewrite <- H1. f_equal; lia.
      + intros i. specialize (H1 (S i)). rewrite (D (S i)) in H1. cbn [pre] in H1. rewrite <- H1. f_equal. lia. }
  destruct V as (Va & Vl & Vr). exists 1, (put t p w), (p + dz d)%Z. injection E as <-. split.
  - eapply run_cons; [|constructor]. unfold rmove, rust_table. rewrite Va, Et. destruct d, q'; reflexivity.
  - assert (Hout : forall z, z <> p -> put t p w z = t z) by (intros z Hz; now apply put_other).
    destruct d; cbn [dz]; unfold place; cbn [r_dir r_left r_right]; (split; [|]).
    + intros i. rewrite Hout by lia. rewrite <- Vl. f_equal; lia.
    + intros [|i]; unfold push_symbol; cbn [den]; unfold blk, one_block; cbn [b_symbols b_rep]; change (ev r (vs_of 1)) with 1; cbn [wpow app pre].
      * replace (p + -1 + 1 + Z.of_nat 0)%Z with p by lia. apply put_same.
      * rewrite Hout by lia. rewrite <- Vr. f_equal; lia.
    + intros i. rewrite Hout by lia. rewrite <- Vr. f_equal; lia.
    + intros [|i]; unfold push_symbol; cbn [den]; unfold blk, one_block; cbn [b_symbols b_rep]; change (ev r (vs_of 1)) with 1; cbn [wpow app pre].
      * replace (p + 1 - 1 - Z.of_nat 0)%Z with p by lia. apply put_same.
      * rewrite Hout by lia. rewrite <- Vl. f_equal; lia.
Qed.
Lemma steps_goes tm r n : forall c c', conf_steps tm n c = Some c' -> goes (rust_table tm) r c c'.
Proof.
  induction n as [|n IH]; intros c c' E; cbn [conf_steps] in E; [injection E as <-; apply goes_refl|].
  destruct (conf_step tm c) as [d|] eqn:Es; [|discriminate]. exact (goes_trans _ _ _ _ _ (step_goes _ r _ _ Es) (IH _ _ E)).
Qed.

Lemma sstate_eqb_sound a b : sstate_eqb a b = true -> a = b.
Proof. destruct a, b; cbn; try discriminate; auto. intros H. apply Nat.eqb_eq in H. now subst. Qed.

Lemma subst_goes M r s c c' : goes M (env_subst r s) c c' -> goes M r (conf_subst s c) (conf_subst s c').
Proof.
  intros H sl sr t p Hp. destruct (H sl sr t p) as (n & t' & p' & Hr & Hq).
  { revert Hp. apply place_ext; [reflexivity| |]; cbn [conf_subst r_left r_right]; rewrite subst_den; apply same_refl. }
  exists n, t', p'. split; [exact Hr|]. revert Hq. apply place_ext; [reflexivity| |]; cbn [conf_subst r_left r_right]; rewrite subst_den; apply same_refl.
Qed.
Lemma replace_goes M r fuel c old new c' : goes M r old new -> conf_replace fuel c old new = Some c' -> goes M r c c'.
Proof.
  unfold conf_replace. intros H E. destruct (sstate_eqb (r_state c) (r_state old) && dir_eqb (r_dir c) (r_dir old))%bool eqn:Es; [|discriminate].
  apply andb_true_iff in Es. destruct Es as (Es & Ed). apply sstate_eqb_sound in Es. apply dir_eqb_eq in Ed.
  destruct (half_replace fuel (r_left c) (r_left old) (r_left new)) as [l|] eqn:El; [|discriminate].
  destruct (half_replace fuel (r_right c) (r_right old) (r_right new)) as [x|] eqn:Ex; [|discriminate]. injection E as <-.
  destruct (replace_den r _ _ _ _ _ El) as (restl & -> & Dl). destruct (replace_den r _ _ _ _ _ Ex) as (restr & -> & Dr).
  intros sl sr t p Hp. destruct (H (den r restl sl) (den r restr sr) t p) as (n & t' & p' & Hr & Hq).
  { revert Hp. apply place_ext; [exact Ed|apply Dl|apply Dr]. }
  exists n, t', p'. cbn [r_state]. rewrite Es. split; [exact Hr|]. revert Hq. apply place_ext; [reflexivity| |]; cbn [r_left r_right]; rewrite den_app; apply same_refl.
Qed.
Lemma equivalent_goes M r fuel c c' : conf_equivalent fuel c c' = true -> goes M r c c'.
Proof.
  unfold conf_equivalent. intros E. apply andb_true_iff in E. destruct E as (E & Er). apply andb_true_iff in E. destruct E as (E & El).
  apply andb_true_iff in E. destruct E as (Es & Ed). apply sstate_eqb_sound in Es. apply dir_eqb_eq in Ed.
  intros sl sr t p Hp. exists 0, t, p. rewrite Es. split; [constructor|]. revert Hp. apply place_ext; [exact Ed| |]; now apply (equivalent_den r fuel).
Qed.
Lemma goes_env M r r' c c' : (forall x, r x = r' x) -> goes M r c c' -> goes M r' c c'.
Proof.
  intros He H sl sr t p Hp. destruct (H sl sr t p) as (n & t' & p' & Hr & Hq).
  { revert Hp. apply place_ext; [reflexivity| |]; rewrite (den_env r' r) by auto; apply same_refl. }
  exists n, t', p'. split; [exact Hr|]. revert Hq. apply place_ext; [reflexivity| |]; rewrite (den_env r r') by auto; apply same_refl.
Qed.

(** one proof, with the values [r] of the variables; the rule itself may be known for every assignment with the same induction variable *)
Lemma proof_sound tm fuel prev ir r : (forall u, In u prev -> rule_true (rust_table tm) u) ->
  (forall u, ir = Some u -> forall r', r' induction_var = r induction_var -> goes (rust_table tm) r' (ru_init u) (ru_final u)) ->
  forall steps c final, no_admit_steps steps -> validate_proof tm fuel c steps final prev ir = true -> goes (rust_table tm) r c final.
Proof.
  intros Hprev Hir. induction steps as [|s steps IH]; intros c final Hna E; [now apply (equivalent_goes _ _ fuel)|].
  assert (Hn : no_admit_steps steps) by (intros X; apply Hna; now right).
  assert (A : exists d, apply_proof_step tm fuel c s prev ir = Some d /\ validate_proof tm fuel d steps final prev ir = true).
  { cbn [validate_proof] in E. destruct s; try (exfalso; apply Hna; now left);
      (destruct (apply_proof_step tm fuel c _ prev ir) as [d|]; [exists d; auto|discriminate]). }
  destruct A as (d & Ea & Ev). apply (goes_trans _ _ _ d); [|exact (IH _ _ Hn Ev)]. clear IH E Ev. destruct s as [n|k s|s|]; cbn [apply_proof_step] in Ea.
  - exact (steps_goes _ r _ _ _ Ea).
  - destruct (nth_error prev k) as [u|] eqn:Eu; [|discriminate]. apply nth_error_In in Eu. revert Ea. apply replace_goes. apply subst_goes. apply (Hprev u Eu).
  - destruct ir as [u|]; [|discriminate]. destruct (subst_get s induction_var) as [e|] eqn:Es; [|discriminate].
    destruct (vs_eq_dec e (vs_var induction_var)) as [-> |]; [|discriminate]. revert Ea. apply replace_goes. apply subst_goes. apply (Hir u eq_refl).
    unfold env_subst. rewrite Es. unfold ev, vs_var. cbn [vs_const vs_vars vev]. lia.
  - exfalso. apply Hna. now left.
Qed.

Lemma rule_sound tm fuel prev u : (forall v, In v prev -> rule_true (rust_table tm) v) -> no_admit u -> validate_rule tm fuel u prev = true ->
  rule_true (rust_table tm) u.
Proof.
  intros Hprev Hna E. unfold validate_rule in E. unfold no_admit in Hna. destruct (ru_proof u) as [p|b s].
  - intros r. apply (proof_sound tm fuel prev None r Hprev) with (steps := p); auto. discriminate.
  - apply andb_true_iff in E. destruct E as (E0 & E1). destruct Hna as (Hb & Hs).
    assert (H : forall n r, r induction_var = n -> goes (rust_table tm) r (ru_init u) (ru_final u)).
    { induction n as [|n IH]; intros r Hr.
      - assert (G : goes (rust_table tm) r (conf_subst [(induction_var, vs_of 0)] (ru_init u)) (conf_subst [(induction_var, vs_of 0)] (ru_final u))).
        { apply (proof_sound tm fuel prev None r Hprev) with (steps := b); auto. discriminate. }
        assert (X : forall x, r x = env_subst r [(induction_var, vs_of 0)] x).
        { intros x. unfold env_subst. cbn [subst_get]. destruct (Nat.eqb_spec x induction_var) as [-> |]; [rewrite Hr|]; reflexivity. }
        intros sl sr t p Hp. destruct (G sl sr t p) as (k & t' & p' & Hk & Hq).
        { revert Hp. apply place_ext; [reflexivity| |]; cbn [conf_subst r_left r_right]; rewrite subst_den; rewrite (den_env _ _ _ _ X); apply same_refl. }
        exists k, t', p'. split; [exact Hk|]. revert Hq.
        apply place_ext; [reflexivity| |]; cbn [conf_subst r_left r_right]; rewrite subst_den; rewrite <- (den_env _ _ _ _ X); apply same_refl.
      - set (r0 := fun x => if Nat.eqb x induction_var then n else r x). set (s1 := [(induction_var, VSum [(induction_var, 1)] 1)]) in *.
        assert (G : goes (rust_table tm) r0 (conf_subst s1 (ru_init u)) (conf_subst s1 (ru_final u))).
        { apply (proof_sound tm fuel prev (Some u) r0 Hprev) with (steps := s); auto. intros v [= <-] r' Hr'. apply IH. rewrite Hr'. reflexivity. }
        assert (X : forall x, r x = env_subst r0 s1 x).
        { intros x. unfold env_subst, s1. cbn [subst_get]. destruct (Nat.eqb_spec x induction_var) as [-> |Hx].
          - rewrite Hr. unfold ev, r0. cbn. lia.
          - unfold r0. destruct (Nat.eqb_spec x induction_var); [contradiction|reflexivity]. }
        intros sl sr t p Hp. destruct (G sl sr t p) as (k & t' & p' & Hk & Hq).
        { revert Hp. apply place_ext; [reflexivity| |]; cbn [conf_subst r_left r_right]; rewrite subst_den; rewrite (den_env _ _ _ _ X); apply same_refl. }
        exists k, t', p'. split; [exact Hk|]. revert Hq.
        apply place_ext; [reflexivity| |]; cbn [conf_subst r_left r_right]; rewrite subst_den; rewrite <- (den_env _ _ _ _ X); apply same_refl. }
    intros r. now apply (H (r induction_var)).
Qed.

Theorem C75_rules : forall tm fuel rules, validate_rule_set tm fuel rules = true -> (forall u, In u rules -> no_admit u) ->
  forall u, In u rules -> rule_true (rust_table tm) u.
Proof.
  intros tm fuel rules. unfold validate_rule_set.
  assert (G : forall rules prev, (forall v, In v prev -> rule_true (rust_table tm) v) -> validate_from tm fuel prev rules = true ->
    (forall u, In u rules -> no_admit u) -> forall u, In u rules -> rule_true (rust_table tm) u).
  { clear rules. induction rules as [|x rules IH]; intros prev Hprev E Hna u Hin; [destruct Hin|]. cbn [validate_from] in E. apply andb_true_iff in E. destruct E as (E1 & E2).
    assert (Hx : rule_true (rust_table tm) x) by (apply (rule_sound tm fuel prev); auto; apply Hna; now left).
    destruct Hin as [<- |Hin]; [exact Hx|]. apply (IH (prev ++ [x])); auto.
    - intros v Hv. apply in_app_iff in Hv. destruct Hv as [Hv|[<- |[]]]; auto.
    - intros v Hv. apply Hna. now right. }
  intros E Hna. apply (G rules []); auto. intros v [].
Qed.

(** ** what this says about runs of the machine from the blank tape *)

Lemma run_steps M : forall n q t p q' t' p', run M (SRun q, t, p) n (SRun q', t', p') -> steps M n (Cfg q p t) = Some (Cfg q' p' t').
Proof.
  induction n as [|n IH]; intros q t p q' t' p' H; inversion H as [|c c' m c'' Hm Hr]; subst; [reflexivity|].
  cbn [rmove] in Hm. cbn [steps]. unfold step. cbn [st hd tp]. destruct (M q (t p)) as [w d q1|w d [|]]; [| |discriminate]; injection Hm as <-.
  - now apply IH.
  - inversion Hr as [|? ? ? ? Hm2 ?]; subst. discriminate.
Qed.
Lemma run_halts M : forall n q t p t' p', run M (SRun q, t, p) n (SHalt, t', p') -> exists q0 s0, halts_at M (Cfg q p t) n q0 s0 true t'.
Proof.
  induction n as [|n IH]; intros q t p t' p' H; inversion H as [|c c' m c'' Hm Hr]; subst.
  cbn [rmove] in Hm. destruct (M q (t p)) as [w d q1|w d [|]] eqn:EM; [| |discriminate]; injection Hm as <-.
  - destruct (IH _ _ _ _ _ Hr) as (q0 & s0 & m & c' & w' & d' & -> & Hs & Hq & Hss & HM & Ht). exists q0, s0. exists (S m), c', w', d'.
    repeat split; auto. cbn [steps]. unfold step. cbn [st hd tp]. rewrite EM. exact Hs.
  - inversion Hr as [|? ? ? ? Hm2 ?]; subst; [|discriminate]. exists q, (t p), 0, (Cfg q p t), w, d. repeat split; auto.
Qed.

(** config.rs lines 274-291: the blank tape *)
Definition rust_start : rconfig := RConfig [Block [0] Inf] [Block [0] Inf] (SRun 0) R.
Lemma start_place r sl sr : place r rust_start sl sr (fun _ => 0) 0%Z.
Proof.
  assert (H : forall i, cyc [0] i = 0) by (intros i; unfold cyc; change (length [0]) with 1; rewrite Nat.mod_1_r; reflexivity).
  split; intros i; symmetry; exact (H i).
Qed.

Theorem C75_reaches : forall tm fuel rules u q, validate_rule_set tm fuel rules = true -> (forall v, In v rules -> no_admit v) -> In u rules ->
  ru_init u = rust_start -> r_state (ru_final u) = SRun q ->
  forall r sl sr, exists n t p, steps (rust_table tm) n initial = Some (Cfg q p t) /\ place r (ru_final u) sl sr t p.
Proof.
  intros tm fuel rules u q E Hna Hu Hi Hf r sl sr. destruct (C75_rules tm fuel rules E Hna u Hu r sl sr (fun _ => 0) 0%Z) as (n & t & p & Hr & Hp).
  { rewrite Hi. apply start_place. }
  rewrite Hi, Hf in Hr. cbn [rust_start r_state] in Hr. exists n, t, p. split; [|exact Hp]. exact (run_steps _ _ _ _ _ _ _ _ Hr).
Qed.
Theorem C75_halts : forall tm fuel rules u, validate_rule_set tm fuel rules = true -> (forall v, In v rules -> no_admit v) -> In u rules ->
  ru_init u = rust_start -> r_state (ru_final u) = SHalt ->
  forall r sl sr, exists n q s t p, halts_at (rust_table tm) initial n q s true t /\ place r (ru_final u) sl sr t p.
Proof.
  intros tm fuel rules u E Hna Hu Hi Hf r sl sr. destruct (C75_rules tm fuel rules E Hna u Hu r sl sr (fun _ => 0) 0%Z) as (n & t & p & Hr & Hp).
  { rewrite Hi. apply start_place. }
  rewrite Hi, Hf in Hr. cbn [rust_start r_state] in Hr. destruct (run_halts _ _ _ _ _ _ _ Hr) as (q & s & H). exists n, q, s, t, p. split; [exact H|exact Hp].
Qed.

(** with [Admit] a false rule passes: a machine without any transition "halts" *)
Theorem C75_admit_refuted : exists tm rules u, (forall fuel, validate_rule_set tm fuel rules = true) /\ In u rules /\ ~ rule_true (rust_table tm) u.
Proof.
  set (u := Rule rust_start (RConfig [] [] SHalt R) (Simple [Admit])). exists [], [u], u. split; [reflexivity|]. split; [now left|].
  intros H. destruct (H (fun _ => 0) (fun _ => 0) (fun _ => 0) (fun _ => 0) 0%Z) as (n & t & p & Hr & _); [apply start_place|].
  cbn [u ru_init ru_final rust_start r_state] in Hr. inversion Hr as [|c c' m c'' Hm Hr2]; subst. discriminate.
Qed.

(** a rule set: state A runs over 1s to the right (by induction), reaches the blank and halts on it *)
Definition ex_tm : rtm := [[RTrans 1 R SHalt; RTrans 0 R (SRun 0)]].
Definition ex_chain : rule :=
  Rule (RConfig [] [Block [1] (Fin (vs_var 0))] (SRun 0) R) (RConfig [Block [0] (Fin (vs_var 0))] [] (SRun 0) R)
    (Inductive_proof [] [TMSteps 1; InductiveStep [(0, vs_var 0)]]).
Definition ex_halt : rule :=
  Rule (RConfig [] [Block [1] (Fin (VSum [(0, 2)] 3)); Block [0] Inf] (SRun 0) R)
    (RConfig [Block [1] (Fin (vs_of 1)); Block [0] (Fin (VSum [(0, 2)] 3))] [Block [0] Inf] SHalt R)
    (Simple [RuleStep 0 [(0, VSum [(0, 2)] 3)]; TMSteps 1]).
Definition ex_start : rule := Rule rust_start (RConfig [Block [1] (Fin (vs_of 1)); Block [0] Inf] [Block [0] Inf] SHalt R) (Simple [TMSteps 1]).
Definition ex_wrong : rule := Rule (ru_init ex_halt) (RConfig [Block [1] (Fin (vs_of 1)); Block [0] (Fin (VSum [(0, 2)] 2))] [Block [0] Inf] SHalt R) (ru_proof ex_halt).
Example C75_accepts : validate_rule_set ex_tm 20 [ex_chain; ex_halt; ex_start] = true /\ validate_rule_set ex_tm 20 [ex_chain; ex_wrong] = false.
Proof. split; reflexivity. Qed.
Example C75_case : rule_true (rust_table ex_tm) ex_halt /\ exists n q s t, halts_at (rust_table ex_tm) initial n q s true t.
Proof.
  assert (Hna : forall v, In v [ex_chain; ex_halt; ex_start] -> no_admit v).
  { intros v [<- |[<- |[<- |[]]]]; cbn; unfold no_admit_steps; cbn; intuition discriminate. }
  destruct C75_accepts as (E & _). split.
  - apply (C75_rules _ _ _ E Hna). right. now left.
  - destruct (C75_halts _ _ _ ex_start E Hna ltac:(right; right; now left) eq_refl eq_refl (fun _ => 0) (fun _ => 0) (fun _ => 0)) as (n & q & s & t & p & H & _).
    exists n, q, s, t. exact H.
Qed.

Print Assumptions C75_rules.
Print Assumptions C75_reaches.
Print Assumptions C75_halts.
Print Assumptions C75_admit_refuted.
Print Assumptions C75_accepts.
Print Assumptions C75_case.
