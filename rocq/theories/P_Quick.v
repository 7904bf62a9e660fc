(** * Lemmas about Quick_Sim *)
Require Import ZArith List Lia Bool Arith.
From Verif Require Import Spec_TM M_Turing_Machine P_Stream P_SimLimited P_Macro P_Repeat P_Pump M_Tape M_Simulator P_Tape P_Simulator
  M_Settings P_Settings M_Prover M_ProverRun M_ProverLim M_ProverRec P_Nums P_Rule P_MakeRule P_Apply P_ProverRun P_LimRule P_LimRun P_RecRun
  M_LinRecur M_Pipeline M_Quick.
Import ListNotations.
Open Scope nat_scope.

Lemma running_dec c : {c = RUNNING} + {c <> RUNNING}. Proof. destruct c; (left; reflexivity) || (right; discriminate). Qed.
Lemma running_eqb c : cond_eqb c RUNNING = true <-> c = RUNNING. Proof. destruct c; cbn; split; congruence. Qed.
Lemma running_neqb c : c <> RUNNING -> cond_eqb c RUNNING = false. Proof. destruct c; cbn; congruence. Qed.

Section Sound.
  Context {Sym St P : Type} (Gd : Prop) (T : table) (M : machine Sym St) (Rp : dcfg Sym St -> config -> Prop) (halted : St -> Prop).
  Hypothesis MS : msound Gd T M Rp halted.
  Hypothesis SW : seen_wf M Rp.
  Variable lap : P -> ctape Z Sym -> St -> nat -> option (P * prover_result Z Sym).
  Variable Pok : P -> Prop.
  Hypothesis PO : prover_ok T M Rp lap Pok.
  Notation ok := (sim_ok Gd T M Rp).

  Lemma step_facts p s : Pok p -> ok s -> exists p' s', sim_step zops M lap (p, s) = Some (p', s') /\ Pok p' /\ ok s' /\
      (s_op s = RUNNING -> s_loops s' = S (s_loops s)) /\ (s_op s = RUNNING -> s_op s' = RUNNING -> (s_steps s < s_steps s')%Z) /\
      (s_op s <> RUNNING -> (p', s') = (p, s)).
  Proof. exact (sim_step_ok Gd T M Rp halted MS SW lap Pok PO p s). Qed.

  Lemma quiet_ok ml fuel : forall p s p' s', Pok p -> ok s -> quiet_loop M lap fuel ml (s_loops s) (p, s) = Some (p', s') ->
    Pok p' /\ ok s' /\ (exists k, sim_iter zops M lap k (p, s) = Some (p', s')) /\
    (s_op s' = RUNNING -> ml <> 0 /\ ml <= s_loops s') /\ (ml <> 0 -> s_loops s <= ml -> s_loops s' <= ml).
  Proof.
    induction fuel as [|fuel IH]; intros p s p' s' Hp Hs; cbn [quiet_loop snd].
    - destruct (_ && _) eqn:E; [discriminate|]. intros Q. injection Q as <- <-. do 2 (split; [assumption|]). split; [exists 0; reflexivity|].
      split; [|auto]. intros R. apply running_eqb in R. rewrite R in E. cbn in E. apply orb_false_iff in E as [E1 E2].
      apply Nat.eqb_neq in E1. apply Nat.ltb_ge in E2. auto.
    - destruct (_ && _) eqn:E.
      + apply andb_true_iff in E as [E1 E2]. apply running_eqb in E1.
        destruct (step_facts p s Hp Hs) as (p1 & s1 & E & Hp1 & Hs1 & L & _). rewrite E. rewrite <- (L E1). intros Q.
        destruct (IH p1 s1 p' s' Hp1 Hs1 Q) as (A1 & A2 & (k & A3) & A4 & A5). do 2 (split; [assumption|]).
        split; [exists (S k); cbn [sim_iter]; rewrite E; exact A3|]. split; [exact A4|]. intros H0 H1. apply A5; [exact H0|].
        apply orb_true_iff in E2 as [E2|E2]; [apply Nat.eqb_eq in E2; contradiction|]. apply Nat.ltb_lt in E2. specialize (L E1). lia.
      + intros Q. injection Q as <- <-. do 2 (split; [assumption|]). split; [exists 0; reflexivity|].
        split; [|auto]. intros R. apply running_eqb in R. rewrite R in E. cbn in E. apply orb_false_iff in E as [E1 E2].
        apply Nat.eqb_neq in E1. apply Nat.ltb_ge in E2. auto.
  Qed.

  Lemma seek_facts cutoff f : forall p s, Pok p -> ok s -> s_loops s <= cutoff -> cutoff <= f + s_loops s ->
    exists p' s' k, loop_seek_loop zops M lap f cutoff (p, s) = Some (p', s') /\ sim_iter zops M lap k (p, s) = Some (p', s') /\
      Pok p' /\ ok s' /\ s_loops s' <= cutoff /\ (s_op s' = RUNNING -> s_loops s' = cutoff) /\
      (s_loops s < cutoff -> s_op s = RUNNING -> s_op s' = RUNNING -> (s_steps s < s_steps s')%Z) /\ (s_steps s <= s_steps s' \/ s_op s' <> RUNNING)%Z.
  Proof.
    induction f as [|f IH]; intros p s Hp Hs Hc Hf; cbn [loop_seek_loop snd].
    - replace (Nat.ltb (s_loops s) cutoff) with false by (symmetry; apply Nat.ltb_ge; lia). cbn [andb].
      exists p, s, 0. do 4 (split; [first [reflexivity|assumption]|]). split; [exact Hc|]. split; [lia|]. split; [lia|]. left; lia.
    - destruct (Nat.ltb_spec (s_loops s) cutoff) as [Hlt|Hge].
      + destruct (running_dec (s_op s)) as [R|R].
        * rewrite (proj2 (running_eqb _) R). cbn [andb].
          destruct (step_facts p s Hp Hs) as (p1 & s1 & E & Hp1 & Hs1 & L & I & _). rewrite E. specialize (L R).
          destruct (IH p1 s1 Hp1 Hs1 ltac:(lia) ltac:(lia)) as (p' & s' & k & A1 & A2 & A3 & A4 & A5 & A6 & A7 & A8).
          exists p', s', (S k). split; [exact A1|]. split; [cbn [sim_iter]; rewrite E; exact A2|]. do 3 (split; [assumption|]). split; [exact A6|].
          assert (W : s_op s' = RUNNING -> (s_steps s < s_steps s')%Z).
          { intros R'. destruct A8 as [A8|A8]; [|contradiction]. destruct (running_dec (s_op s1)) as [R1|R1].
            - specialize (I R R1). lia.
            - exfalso. clear -A2 R1 R'. revert A2 R'. induction k as [|k IHk]; cbn [sim_iter]; intros A2 R'; [congruence|].
              unfold sim_step in A2. rewrite running_neqb in A2 by exact R1. cbn [negb] in A2. auto. }
          split; [auto|]. destruct (running_dec (s_op s')); [left; specialize (W e); lia|right; assumption].
        * rewrite (running_neqb _ R). exists p, s, 0. do 4 (split; [first [reflexivity|assumption]|]). split; [exact Hc|]. split; [contradiction|]. split; [contradiction|]. left; lia.
      + cbn [andb]. exists p, s, 0. do 4 (split; [first [reflexivity|assumption]|]). split; [exact Hc|]. split; [lia|]. split; [lia|]. left; lia.
  Qed.

  Variable freeze : P -> option P.
  Hypothesis FO : forall p p', Pok p -> freeze p = Some p' -> Pok p'.

  (** at most the limit, rounded up to a multiple of the loops between two lines *)
  Definition rounded (ml pl loops : nat) : Prop := exists k, loops <= k * pl /\ (k = 0 \/ (k - 1) * pl < ml).
  Lemma print_ok ml pl fuel : forall p s p' s' total k, Pok p -> ok s -> (s_op s = RUNNING -> total = s_loops s) ->
    print_loop M lap freeze fuel ml pl total (p, s) = Some (p', s') ->
    Pok p' /\ ok s' /\ (s_op s' = RUNNING -> ml <> 0 /\ ml <= s_loops s') /\
    (ml <> 0 -> total = k * pl -> s_loops s <= total -> k = 0 \/ (k - 1) * pl < ml -> rounded ml pl (s_loops s')).
  Proof.
    induction fuel as [|fuel IH]; intros p s p' s' total k Hp Hs Ht; cbn [print_loop snd].
    - destruct (_ && _) eqn:E; [discriminate|]. intros Q. injection Q as <- <-. do 2 (split; [assumption|]).
      split; [|intros; exists k; split; [lia|assumption]]. intros R. rewrite (Ht R) in E. apply running_eqb in R. rewrite R in E. cbn in E. apply orb_false_iff in E as [E1 E2].
      apply Nat.eqb_neq in E1. apply Nat.ltb_ge in E2. auto.
    - destruct (_ && _) eqn:E.
      + apply andb_true_iff in E as [E1 E2]. apply running_eqb in E1. specialize (Ht E1). subst total.
        unfold loop_seek. cbn [snd]. replace (s_loops s + pl - s_loops s) with pl by lia.
        destruct (seek_facts (s_loops s + pl) pl p s Hp Hs ltac:(lia) ltac:(lia)) as (p1 & s1 & k1 & -> & _ & Hp1 & Hs1 & L1 & L2 & _).
        destruct (freeze p1) as [p2|] eqn:Ef; [|discriminate]. intros Q.
        destruct (IH p2 s1 p' s' (s_loops s + pl) (S k) ltac:(eauto) Hs1 ltac:(intros; symmetry; auto) Q) as (A1 & A2 & A3 & A4).
        do 3 (split; [assumption|]). intros H0 H1 H2 H3.
        apply orb_true_iff in E2 as [E2|E2]; [apply Nat.eqb_eq in E2; contradiction|]. apply Nat.ltb_lt in E2. apply A4; lia.
      + intros Q. injection Q as <- <-. do 2 (split; [assumption|]).
        split; [|intros; exists k; split; [lia|assumption]]. intros R. rewrite (Ht R) in E. apply running_eqb in R. rewrite R in E. cbn in E. apply orb_false_iff in E as [E1 E2].
        apply Nat.eqb_neq in E1. apply Nat.ltb_ge in E2. auto.
  Qed.

  (** the loops end *)
  Hypothesis FT : forall p, exists p', freeze p = Some p'.
  Variable bound : option nat.
  Hypothesis HB : forall B, bound = Some B -> forall s, ok s -> s_op s = RUNNING -> (0 <= s_steps s < Z.of_nat B)%Z.
  Definition budget (ml : nat) (s : sim Z Sym St) (fuel : nat) : Prop :=
    (ml <> 0 /\ ml <= fuel + s_loops s) \/ (exists B, bound = Some B /\ (Z.of_nat B <= Z.of_nat fuel + s_steps s)%Z).

  Lemma quiet_total ml fuel : forall p s, Pok p -> ok s -> s_op s <> RUNNING \/ budget ml s fuel ->
    exists ps, quiet_loop M lap fuel ml (s_loops s) (p, s) = Some ps.
  Proof.
    induction fuel as [|fuel IH]; intros p s Hp Hs Hb; cbn [quiet_loop snd].
    - destruct (_ && _) eqn:E; [|eauto]. exfalso. apply andb_true_iff in E as [E1 E2]. apply running_eqb in E1.
      destruct Hb as [?|[(H1 & H2)|(B & H1 & H2)]]; [contradiction| |].
      + apply orb_true_iff in E2 as [E2|E2]; [apply Nat.eqb_eq in E2; contradiction|]. apply Nat.ltb_lt in E2. lia.
      + specialize (HB B H1 s Hs E1). lia.
    - destruct (_ && _) eqn:E; [|eauto]. apply andb_true_iff in E as [E1 E2]. apply running_eqb in E1.
      destruct (step_facts p s Hp Hs) as (p1 & s1 & -> & Hp1 & Hs1 & L & I & _). rewrite <- (L E1). apply IH; auto.
      destruct (running_dec (s_op s1)) as [R1|R1]; [right|auto]. specialize (L E1). specialize (I E1 R1).
      destruct Hb as [?|[(H1 & H2)|(B & H1 & H2)]]; [contradiction| |].
      + left. split; [exact H1|lia].
      + right. exists B. split; [exact H1|lia].
  Qed.
  Lemma print_total ml pl fuel : 0 < pl -> forall p s total, Pok p -> ok s -> (s_op s = RUNNING -> total = s_loops s) ->
    s_op s <> RUNNING \/ budget ml s fuel -> exists ps, print_loop M lap freeze fuel ml pl total (p, s) = Some ps.
  Proof.
    intros Hpl. induction fuel as [|fuel IH]; intros p s total Hp Hs Ht Hb; cbn [print_loop snd].
    - destruct (_ && _) eqn:E; [|eauto]. exfalso. apply andb_true_iff in E as [E1 E2]. apply running_eqb in E1. rewrite (Ht E1) in E2.
      destruct Hb as [?|[(H1 & H2)|(B & H1 & H2)]]; [contradiction| |].
      + apply orb_true_iff in E2 as [E2|E2]; [apply Nat.eqb_eq in E2; contradiction|]. apply Nat.ltb_lt in E2. lia.
      + specialize (HB B H1 s Hs E1). lia.
    - destruct (_ && _) eqn:E; [|eauto]. apply andb_true_iff in E as [E1 E2]. apply running_eqb in E1. specialize (Ht E1). subst total.
      unfold loop_seek. cbn [snd]. replace (s_loops s + pl - s_loops s) with pl by lia.
      destruct (seek_facts (s_loops s + pl) pl p s Hp Hs ltac:(lia) ltac:(lia)) as (p1 & s1 & k & -> & _ & Hp1 & Hs1 & L1 & L2 & L3 & _).
      destruct (FT p1) as (p2 & Ef). rewrite Ef. apply IH; [eauto|exact Hs1|intros R; now rewrite (L2 R)|].
      destruct (running_dec (s_op s1)) as [R1|R1]; [right|auto]. specialize (L2 R1). specialize (L3 ltac:(lia) E1 R1).
      destruct Hb as [?|[(H1 & H2)|(B & H1 & H2)]]; [contradiction| |].
      + left. split; [exact H1|lia].
      + right. exists B. split; [exact H1|lia].
  Qed.
End Sound.

(** ** printing does not change the run *)
Section Silent.
  Context {Sym St P : Type} (M : machine Sym St).
  Variable lap : P -> ctape Z Sym -> St -> nat -> option (P * prover_result Z Sym).
  Lemma iter_stuck k ps : s_op (snd ps) <> RUNNING -> sim_iter zops M lap k ps = Some ps.
  Proof.
    intros R. induction k as [|k IH]; [reflexivity|]. cbn [sim_iter]. destruct ps as [p s]. cbn [snd] in R.
    unfold sim_step. rewrite (running_neqb _ R). exact IH.
  Qed.
  Lemma iter_ends k1 k2 ps ps1 ps2 : sim_iter zops M lap k1 ps = Some ps1 -> sim_iter zops M lap k2 ps = Some ps2 ->
    s_op (snd ps1) <> RUNNING -> s_op (snd ps2) <> RUNNING -> ps1 = ps2.
  Proof.
    revert k2 ps. induction k1 as [|k1 IH]; intros k2 ps E1 E2 R1 R2.
    - cbn in E1. injection E1 as ->. rewrite (iter_stuck k2 ps1 R1) in E2. congruence.
    - destruct k2 as [|k2]; [cbn [sim_iter] in E2; injection E2 as ->; rewrite (iter_stuck (S k1) ps2 R2) in E1; congruence|].
      cbn [sim_iter] in E1, E2. destruct (sim_step zops M lap ps); [|discriminate]. eauto.
  Qed.
  Lemma quiet_iter fuel : forall total ps ps', quiet_loop M lap fuel 0 total ps = Some ps' ->
    exists k, sim_iter zops M lap k ps = Some ps' /\ s_op (snd ps') <> RUNNING.
  Proof.
    induction fuel as [|fuel IH]; intros total ps ps'; cbn [quiet_loop Nat.eqb orb]; rewrite andb_true_r.
    - destruct (cond_eqb _ _) eqn:E; [discriminate|]. intros Q. injection Q as <-. exists 0. split; [reflexivity|]. intros R. rewrite R in E. discriminate.
    - destruct (cond_eqb _ _) eqn:E.
      + destruct (sim_step zops M lap ps) as [ps1|] eqn:Es; [|discriminate]. intros Q. destruct (IH _ _ _ Q) as (k & A & B).
        exists (S k). cbn [sim_iter]. rewrite Es. auto.
      + intros Q. injection Q as <-. exists 0. split; [reflexivity|]. intros R. rewrite R in E. discriminate.
  Qed.
  Lemma seek_iter cutoff f : forall ps ps', loop_seek_loop zops M lap f cutoff ps = Some ps' -> exists k, sim_iter zops M lap k ps = Some ps'.
  Proof.
    induction f as [|f IH]; intros ps ps'; cbn [loop_seek_loop]; destruct (_ && _); try discriminate;
      try (intros Q; injection Q as <-; exists 0; reflexivity).
    destruct (sim_step zops M lap ps) as [ps1|] eqn:Es; [|discriminate]. intros Q. destruct (IH _ _ Q) as (k & A).
    exists (S k). cbn [sim_iter]. now rewrite Es.
  Qed.
  Lemma iter_app a : forall b ps ps1 ps2, sim_iter zops M lap a ps = Some ps1 -> sim_iter zops M lap b ps1 = Some ps2 -> sim_iter zops M lap (a + b) ps = Some ps2.
  Proof.
    induction a as [|a IH]; intros b ps ps1 ps2 E1 E2; cbn [sim_iter plus] in *; [congruence|].
    destruct (sim_step zops M lap ps); [eauto|discriminate].
  Qed.
  Lemma print_iter pl fuel : forall total ps ps', print_loop M lap Some fuel 0 pl total ps = Some ps' ->
    exists k, sim_iter zops M lap k ps = Some ps' /\ s_op (snd ps') <> RUNNING.
  Proof.
    induction fuel as [|fuel IH]; intros total ps ps'; cbn [print_loop Nat.eqb orb]; rewrite andb_true_r.
    - destruct (cond_eqb _ _) eqn:E; [discriminate|]. intros Q. injection Q as <-. exists 0. split; [reflexivity|]. intros R. rewrite R in E. discriminate.
    - destruct (cond_eqb _ _) eqn:E.
      + destruct (loop_seek zops M lap _ ps) as [(p1, s1)|] eqn:Es; [|discriminate]. intros Q. destruct (IH _ _ _ Q) as (k & A & B).
        destruct (seek_iter _ _ _ _ Es) as (j & C). exists (j + k). split; [eapply iter_app; eauto|exact B].
      + intros Q. injection Q as <-. exists 0. split; [reflexivity|]. intros R. rewrite R in E. discriminate.
  Qed.
End Silent.

(** ** two provers that agree as long as [Q] holds *)
Section Same.
  Context {Sym St P : Type}.
  Variables (M : machine Sym St) (lap1 lap2 : P -> ctape Z Sym -> St -> nat -> option (P * prover_result Z Sym)) (Q : P -> Prop).
  Hypothesis H12 : forall p t q l p' r, lap1 p t q l = Some (p', r) -> Q p' -> Q p /\ lap2 p t q l = Some (p', r).
  Variable freeze : P -> option P.
  Hypothesis HF : forall p p', freeze p = Some p' -> Q p' -> Q p.
  Lemma same_quiet ml fuel : forall total ps ps', quiet_loop M lap1 fuel ml total ps = Some ps' -> Q (fst ps') ->
    Q (fst ps) /\ quiet_loop M lap2 fuel ml total ps = Some ps'.
  Proof.
    induction fuel as [|fuel IH]; intros total ps ps'; cbn [quiet_loop]; destruct (_ && _); try discriminate; try (intros E HQ; injection E as <-; auto).
    destruct (sim_step zops M lap1 ps) as [p1|] eqn:Es; [|discriminate]. intros E HQ.
    destruct (IH _ _ _ E HQ) as [Q1 E1]. destruct (same_step M lap1 lap2 Q H12 _ _ Es Q1) as [Q0 ->]. auto.
  Qed.
  Lemma same_print ml pl fuel : forall total ps ps', print_loop M lap1 freeze fuel ml pl total ps = Some ps' -> Q (fst ps') ->
    Q (fst ps) /\ print_loop M lap2 freeze fuel ml pl total ps = Some ps'.
  Proof.
    induction fuel as [|fuel IH]; intros total ps ps'; cbn [print_loop]; destruct (_ && _); try discriminate; try (intros E HQ; injection E as <-; auto).
    destruct (loop_seek zops M lap1 _ ps) as [(p1, s1)|] eqn:Es; [|discriminate].
    destruct (freeze p1) as [p2|] eqn:Ef; [|discriminate]. intros E HQ.
    destruct (IH _ _ _ E HQ) as [Q1 E1]. cbn [fst] in Q1. destruct (same_loop M lap1 lap2 Q H12 _ _ _ _ Es (HF _ _ Ef Q1)) as [Q0 E0].
    unfold loop_seek. rewrite E0, Ef. auto.
  Qed.
End Same.

(** ** the flag *)
Section Flag.
  Context {Sym St : Type} (Gd : Prop) (T : table) (M : machine Sym St) (Rp : dcfg Sym St -> config -> Prop) (halted : St -> Prop).
  Hypothesis MS : msound Gd T M Rp halted.
  Hypothesis SW : seen_wf M Rp.
  Hypothesis PU : pumpable Rp.

  Lemma freezable_ok {P} (lap frozen : P -> ctape Z Sym -> St -> nat -> option (P * prover_result Z Sym)) (Pok : P -> Prop) :
    prover_ok T M Rp lap Pok -> prover_ok T M Rp frozen Pok -> prover_ok T M Rp (freezable lap frozen) (fun p => Pok (snd p)).
  Proof.
    intros H1 H2 (b, p) t q loops c Hp W R. cbn [snd] in Hp. unfold freezable. cbn [fst snd].
    assert (X : exists p' r, (if b then frozen else lap) p t q loops = Some (p', r) /\ Pok p' /\ result_ok T M Rp t q c r).
    { destruct b; [apply H2|apply H1]; auto. }
    destruct X as (p' & r & -> & A & B). exists (b, p'), r. cbn [option_map fst snd]. auto.
  Qed.
  Lemma frozen_plain_ok mc mr : 0 < mr -> prover_ok T M Rp (frozen_plain M mc mr) (rules_ok T M Rp).
  Proof.
    intros Hm p t q loops c Hp W R. unfold frozen_plain. destruct (kget M _ _).
    - exact (lap_ok Gd T M Rp halted MS SW PU mc mr Hm p t q loops c Hp W R).
    - exists p, PNothing. split; [reflexivity|]. split; [exact Hp|exact I].
  Qed.
  Lemma frozen_lim_ok order : (forall A l, incl (order A l) l) -> prover_ok T M Rp (frozen_lim M order) (lrules_ok T M Rp).
  Proof.
    intros Horder p t q loops c Hp W R. unfold frozen_lim.
    destruct (try_lim_ok T M Rp (order _ (lim_found M p (strip_config z_is1 q t))) t q c W R) with (next := lp_next p) as (nx & o & -> & Ho).
    { intros r Hr. eapply lim_found_ok; eauto. eapply Horder; eauto. }
    destruct o as [res|]; do 2 eexists; (split; [reflexivity|]); split; try exact Hp; [exact Ho|exact I].
  Qed.
  Definition frozen_total (mc mr : nat) (p : rprover Sym St) (t : ctape Z Sym) (q : St) (loop : nat) : option (rprover Sym St * prover_result Z Sym) :=
    match kget M (strip_config z_is1 q t) (rp_rules p) with
    | Some _ => lap_total M mc mr p t q loop
    | None => Some (p, PNothing)
    end.
  Lemma frozen_total_ok mc mr : prover_ok T M Rp (frozen_total mc mr) (rp_ok T M Rp).
  Proof.
    intros p t q loops c Hp W R. unfold frozen_total. destruct (kget M _ _).
    - exact (lap_total_ok Gd T M Rp halted MS SW PU mc mr p t q loops c Hp W R).
    - exists p, PNothing. split; [reflexivity|]. split; [exact Hp|exact I].
  Qed.
End Flag.
Lemma rec_same {Sym St} (M : machine Sym St) mc mr p t q l p' r :
  freezable (log_and_apply_r M mc mr) (frozen_rec M mc mr) p t q l = Some (p', r) -> rp_trusted (snd p') = true ->
  rp_trusted (snd p) = true /\ freezable (lap_total M mc mr) (frozen_total M mc mr) p t q l = Some (p', r).
Proof.
  destruct p as (b, p). unfold freezable, frozen_rec, frozen_total, lap_total. cbn [fst snd].
  assert (X : forall p1 r1, log_and_apply_r M mc mr p t q l = Some (p1, r1) -> rp_trusted p1 = true -> rp_trusted p = true)
    by (intros; eapply lap_r_trusted; eauto).
  destruct b.
  - destruct (kget M _ _).
    + destruct (log_and_apply_r M mc mr p t q l) as [(p1, r1)|] eqn:E; [|discriminate]. cbn [option_map fst snd]. intros Q. injection Q as <- <-. cbn [snd].
      intros Tr. split; [eapply X; eauto|]. rewrite Tr. reflexivity.
    + cbn [option_map fst snd]. intros Q. injection Q as <- <-. auto.
  - destruct (log_and_apply_r M mc mr p t q l) as [(p1, r1)|] eqn:E; [|discriminate]. cbn [option_map fst snd]. intros Q. injection Q as <- <-. cbn [snd].
    intros Tr. split; [eapply X; eauto|]. rewrite Tr. reflexivity.
Qed.
