(** * The filter tools on the undecided records of an enumeration *)
Require Import ZArith List Lia Bool Arith Permutation.
From Verif Require Import Spec_TM M_Turing_Machine M_IO M_Enum M_LinRecur M_Filters M_Pipeline M_Enumerate M_Resume M_Campaign
  P_Macro P_Quint P_IO P_Tree P_Complete P_Complete2 P_Unique P_TNF2 P_Queue P_EnumTree P_Enumerate P_Resume Prop_LinRecur Prop_Pipeline Prop_Enumerate.
From Verif Require M_Tools P_Tools Prop_Tools M_CPS.
Import ListNotations.
Open Scope nat_scope.

Section Tools.
  Variables (fuel : nat) (ord_c : list (@M_CPS.cfg nat sstate) -> list (@M_CPS.cfg nat sstate))
    (ord_b : list (list nat) -> list (list nat)).

  (** ** one record at a time *)
  Fixpoint all_tools (tools : list M_Tools.tool) (r : M_Tools.tm_record) : option M_Tools.tm_record :=
    match tools with
    | [] => Some r
    | x :: tools => match M_Tools.apply_tool fuel ord_c ord_b x r with Some r' => all_tools tools r' | None => None end
    end.
  Lemma filter_all tools : forall recs out, M_Tools.filter_files fuel ord_c ord_b tools recs = (out, true) ->
    Forall2 (fun r r' => all_tools tools r = Some r') recs out.
  Proof.
    induction tools as [|x tools IH]; intros recs out; cbn [M_Tools.filter_files all_tools].
    - intros X. injection X as <-. induction recs; constructor; auto.
    - destruct (M_Tools.filter_file _ recs) as (o1, b1) eqn:E1. destruct b1; [|discriminate]. intros E2.
      pose proof (P_Tools.filter_file_finished _ _ _ E1) as F. specialize (IH o1 out E2). clear E1 E2. revert out IH.
      induction F as [|r r1 recs o1 A F IHF]; intros out IH; inversion IH; subst; constructor; [now rewrite A|]. now apply IHF.
  Qed.
  Lemma filter_one tools : forall r r', all_tools tools r = Some r' -> M_Tools.filter_files fuel ord_c ord_b tools [r] = ([r'], true).
  Proof.
    induction tools as [|x tools IH]; intros r r' E; cbn [all_tools] in E; [injection E as <-; reflexivity|].
    destruct (M_Tools.apply_tool _ _ _ x r) as [r1|] eqn:E1; [|discriminate]. cbn [M_Tools.filter_files M_Tools.filter_file]. rewrite E1. now apply IH.
  Qed.

  (** ** the tools do not say that a machine halts or quasihalts *)
  Definition quiet (r : M_Tools.tm_record) : Prop :=
    M_Tools.h_halting (M_Tools.t_halt r) = false /\ M_Tools.q_decided (M_Tools.t_quasi r) = false.
  Lemma tool_quiet x r r' : quiet r -> M_Tools.apply_tool fuel ord_c ord_b x r = Some r' -> quiet r'.
  Proof.
    intros Q. destruct x as [o|o|]; cbn [M_Tools.apply_tool].
    - destruct (M_Tools.ctl_filter_all fuel o r) as [[r1 b]|] eqn:E; [|discriminate]. intros X. injection X as <-. revert r r1 b Q E.
      apply P_Tools.ctl_all_inv. intros bs off r r1 b Q. unfold M_Tools.ctl_filter. destruct (_ || _); [|discriminate].
      destruct (M_CTL.test_CTL _ _ _ _ _) as [([|], k)|]; [| |discriminate]; intros X; injection X as <- <-; [split; reflexivity|exact Q].
    - unfold M_Tools.cps_record. destruct (M_CPS.cps_filter_all _ _ _ _ _ _ _ _ _ _) as [[|]|]; [| |discriminate]; intros X; injection X as <-; split; reflexivity.
    - unfold M_Tools.reverse_record. destruct (is_infinite _ _ _) as [[|]|]; [| |discriminate]; intros X; injection X as <-; [split; reflexivity|exact Q].
  Qed.
  Lemma tools_quiet tools : forall r r', quiet r -> all_tools tools r = Some r' -> quiet r'.
  Proof.
    induction tools as [|x tools IH]; intros r r' Q; cbn [all_tools]; [intros X; now injection X as <-|].
    destruct (M_Tools.apply_tool _ _ _ x r) as [r1|] eqn:E1; [|discriminate]. apply IH. eapply tool_quiet; eauto.
  Qed.
  Lemma quiet_status r : quiet r -> tool_status r = Unknown \/ exists s, tool_status r = Infinite s QUndecided.
  Proof.
    intros (Q1 & Q2). unfold tool_status, quasi_of. rewrite Q1, Q2. destruct (M_Tools.h_decided _); [right; eauto|now left].
  Qed.

  Variable tools : list M_Tools.tool.
  Variables n m : nat.
  Notation fstat := (filter_status fuel ord_c ord_b tools n m).

  Lemma filter_status_cases tab : fstat tab = Unknown \/ exists s, fstat tab = Infinite s QUndecided.
  Proof.
    unfold filter_status. destruct (M_Tools.filter_files _ _ _ tools [_]) as (out, b) eqn:E. destruct b; [|destruct out as [|? [|]]; auto].
    pose proof (filter_all _ _ _ E) as F. inversion F as [|? r1 ? ? A F']; subst. inversion F'; subst. apply quiet_status.
    eapply tools_quiet; [|exact A]. split; reflexivity.
  Qed.
  Lemma filter_expand tab : expand_job n m false fstat tab = [].
  Proof. unfold expand_job, halt_cell. now destruct (filter_status_cases tab) as [->|(s & ->)]. Qed.

  Hypothesis Hc : forall l x, In x (ord_c l) <-> In x l.
  Hypothesis Hb : forall l x, In x (ord_b l) <-> In x l.
  Hypothesis HS : Forall P_Tools.tool_sound tools.

  Lemma filter_truthful : 0 < n -> 0 < m -> truthful n m fstat.
  Proof.
    intros Hn Hm tab W. destruct (filter_status_cases tab) as [->|(s & Es)]; [exact Logic.I|]. rewrite Es.
    unfold filter_status in Es. destruct (M_Tools.filter_files _ _ _ tools [_]) as (out, b) eqn:E.
    destruct out as [|r [|? ?]]; try discriminate. destruct b; [|discriminate].
    destruct (Prop_Tools.C60_records_stay_true fuel ord_c ord_b tools [M_Tools.fresh_record tab n m] [r] true Hc Hb HS) as (_ & _ & H); [|exact E|].
    { constructor; [|constructor]. apply P_Tools.fresh_true. now apply std_wf. }
    destruct (H 0 r eq_refl) as ((_ & HT & _) & r0 & E0 & Tab & _). cbn [nth_error] in E0. injection E0 as <-. cbn in Tab.
    assert (N : nonhalting (table_of tab) initial).
    { unfold tool_status in Es. rewrite <- Tab. unfold P_Tools.halt_true in HT. destruct (M_Tools.h_decided _); [|discriminate]. specialize (HT eq_refl).
      destruct (M_Tools.h_halting _); [|exact HT]. destruct (M_Tools.h_steps _), (M_Tools.h_score _); discriminate. }
    split; [intros _; exact N|intros _; exact Logic.I].
  Qed.
End Tools.

(** ** a queue without children *)
Lemma no_children {A} (f : A -> list A) l : (forall x, f x = []) -> concat (map f l) = [].
Proof. intros H. induction l as [|x l IH]; [reflexivity|]. cbn [map concat]. now rewrite H, IH. Qed.
Lemma leaves {A} (f : A -> list A) l : (forall x, f x = []) -> forest f l l.
Proof.
  intros H. induction l as [|x l IH]; [constructor|]. change (x :: l) with (x :: [] ++ l) at 2. constructor; [rewrite H; constructor|exact IH].
Qed.

Lemma perm_some_inv {A} (x y : list A) : Permutation (map Some x) (map Some y) -> Permutation x y.
Proof.
  intros P. apply Permutation_map_inv in P. destruct P as (z & E & P).
  enough (x = z) as -> by now apply Permutation_sym. clear P. revert z E. induction x as [|a x IH]; intros [|b z] E; try discriminate; [reflexivity|].
  injection E as -> E. f_equal. now apply IH.
Qed.

(** ** the records the tools are given and those they write *)
Lemma tool_records_of n m first : 0 < n <= 7 -> 1 < m <= 7 -> forall infile tabs,
  (forall x, In x tabs -> node n m false first x) -> map Some infile = map (unrun_record n m) tabs ->
  tool_records infile = Some (map (fun x => M_Tools.fresh_record x n m) tabs).
Proof.
  intros Hn Hm infile tabs N E. revert infile E. induction tabs as [|x tabs IH]; intros [|r infile] E; try discriminate; [reflexivity|].
  cbn [map] in E. injection E as E1 E2. cbn [tool_records map]. rewrite (IH (fun y Hy => N y (or_intror Hy)) infile E2).
  destruct (unrun_node n m first Hn Hm x (N x (or_introl eq_refl))) as (p & Ep & Wp & Rp).
  assert (r = (p, Unknown)) as -> by congruence. unfold tool_record. cbn [fst]. now rewrite Rp.
Qed.
Lemma filtered_records fuel ord_c ord_b tools n m first : 0 < n <= 7 -> 1 < m <= 7 ->
  forall infile tabs new, (forall x, In x tabs -> node n m false first x) -> map Some infile = map (unrun_record n m) tabs ->
  filter_run fuel ord_c ord_b tools infile = Some new ->
  map Some new = map (record_of n m (filter_status fuel ord_c ord_b tools n m)) tabs.
Proof.
  intros Hn Hm infile tabs new N E. unfold filter_run.
  pose proof (tool_records_of n m first Hn Hm infile tabs N E) as R.
  rewrite R. clear R. destruct (M_Tools.filter_files _ _ _ tools _) as (out, b) eqn:EF. destruct b; [|discriminate].
  intros X. injection X as <-. pose proof (filter_all _ _ _ _ _ _ EF) as F. clear EF. revert infile E out F.
  induction tabs as [|x tabs IH]; intros [|r infile] E out F; try discriminate; inversion F as [|? r1 ? out' A F']; subst; [reflexivity|].
  cbn [map] in E. injection E as E1 E2. cbn [combine map]. f_equal; [|apply (IH (fun y Hy => N y (or_intror Hy))); auto].
  destruct (unrun_node n m first Hn Hm x (N x (or_introl eq_refl))) as (p & Ep & Wp & Rp).
  assert (r = (p, Unknown)) as -> by congruence. cbn [fst snd].
  assert (ES : filter_status fuel ord_c ord_b tools n m x = tool_status r1).
  { unfold filter_status. now rewrite (filter_one _ _ _ _ _ _ A). }
  unfold record_of. destruct (filter_status_cases fuel ord_c ord_b tools n m x) as [X|(s & X)]; rewrite X; rewrite Wp; cbn [option_map]; congruence.
Qed.
