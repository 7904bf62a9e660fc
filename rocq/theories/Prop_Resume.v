(** * C64: an enumeration done in several runs

    Enumerate.py with [--num-enum] and [--infile]: the file of one run is the input of the next. *)
Require Import ZArith List Lia Bool Arith Permutation.
From Verif Require Import Spec_TM Spec_Rename M_Turing_Machine M_Direct M_Tape M_Simulator M_Settings M_Filters M_IO M_Enum M_Pipeline M_Enumerate M_Resume M_Campaign
  P_Macro P_Quint P_IO P_Tree P_Complete P_Complete2 P_Unique P_TNF2 P_Queue P_EnumTree P_Enumerate P_Resume P_Campaign Prop_LinRecur Prop_IO Prop_Enum Prop_Count Prop_Pipeline Prop_Enumerate.
From Verif Require P_Tools.
Import ListNotations.
Open Scope nat_scope.

(** The records that exist after any number of runs: a first run, possibly stopped by [--num-enum]; then
    runs on files with some of the undecided records, in any order, whose output replaces what they were
    given.  Every run may have its own settings; [allowed] restricts them by the results they give.  Between
    the runs the filter tools may be used in the same way (C66).  This is without [--allow-no-halt], see
    C64_allow_no_halt_refuted, and halting records are not given to a run again, see C64_whole_file_refuted. *)
Inductive campaign (allowed : (ttable -> status) -> Prop) (n m : nat) (first : bool) : list (proto_tm * status) -> Prop :=
| campaign_first faster order next o fuel late shuffle d num rounds cnt q file :
    settings_ok order next n m o -> allowed (run_status faster order next n m o fuel late) -> (forall k l, Permutation (shuffle k l) l) ->
    enumerate_tms faster order next n m false o fuel late shuffle d first num rounds = Some (cnt, q, map Some file) ->
    campaign allowed n m first file
| campaign_next faster order next o fuel late shuffle d num rounds cnt q file infile kept new :
    campaign allowed n m first file ->
    Permutation file (infile ++ kept) -> (forall r, In r infile -> undecided r = true) ->
    settings_ok order next n m o -> allowed (run_status faster order next n m o fuel late) -> (forall k l, Permutation (shuffle k l) l) ->
    enumerate_infile faster order next o fuel late shuffle d num rounds infile = Some (cnt, q, map Some new) ->
    campaign allowed n m first (kept ++ new)
| campaign_filter fuel ord_c ord_b tools file infile kept new :
    campaign allowed n m first file ->
    Permutation file (infile ++ kept) -> (forall r, In r infile -> undecided r = true) ->
    (forall l x, In x (ord_c l) <-> In x l) -> (forall l x, In x (ord_b l) <-> In x l) ->
    Forall P_Tools.tool_sound tools -> allowed (filter_status fuel ord_c ord_b tools n m) ->
    filter_run fuel ord_c ord_b tools infile = Some new ->
    campaign allowed n m first (kept ++ new).

Lemma settings_sizes order next n m o : settings_ok order next n m o -> 0 < n <= 7 /\ 1 < m <= 7.
Proof. intros (H1 & H2 & _). auto. Qed.
Lemma settings_truthful faster order next n m o fuel late : settings_ok order next n m o ->
  truthful n m (run_status faster order next n m o fuel late).
Proof. intros (H1 & H2 & Ho & PT & BC) tab. apply run_status_true; auto; lia. Qed.

Lemma read_unrun n m first infile tabs : 0 < n <= 7 -> 1 < m <= 7 -> (forall x, In x tabs -> node n m false first x) ->
  map Some infile = map (unrun_record n m) tabs -> read_jobs infile = Some (map (new_job n m false) tabs).
Proof.
  intros Hn Hm. revert infile. induction tabs as [|x tabs IH]; intros [|r infile] N E; try discriminate; [reflexivity|].
  cbn [map] in E. injection E as E1 E2. cbn [read_jobs map]. rewrite (IH infile) by (auto; intros; apply N; simpl; auto).
  destruct (unrun_node n m first Hn Hm x) as (p & Ep & Wp & Rp); [apply N; simpl; auto|].
  assert (r = (p, Unknown)) as -> by congruence. unfold read_job. cbn [fst]. rewrite Rp. unfold new_job. now rewrite Wp.
Qed.
(** the queue of an infile is that of the tables in it *)
Lemma infile_tables faster order next n m o fuel late shuffle d num rounds infile tabs :
  (forall k l, Permutation (shuffle k l) l) -> read_jobs infile = Some (map (new_job n m false) tabs) ->
  let run := run_status faster order next n m o fuel late in
  exists shuffle', (forall k l, Permutation (shuffle' k l) l) /\
  enumerate_infile faster order next o fuel late shuffle d num rounds infile =
  option_map (lift (new_job n m false))
    (enum_main ttable _ (expand_job n m false run) (record_of n m run) (unrun_record n m) shuffle' d num rounds 0 tabs [] []).
Proof.
  intros SH R run. exists (fun k l => map j_tab (shuffle k (map (new_job n m false) l))). split.
  - intros k l. apply (pulled_shuffle (new_job n m false) j_tab (fun k l => map j_tab (shuffle k (map (new_job n m false) l))) shuffle); auto.
  - unfold enumerate_infile. rewrite R. change (@nil job) with (map (new_job n m false) []).
    apply main_map with (g := j_tab); auto.
Qed.

Lemma campaign_staged allowed n m first file : campaign allowed n m first file ->
  0 < n <= 7 /\ 1 < m <= 7 /\ exists root stat ran left, blank_tm_enum n m first = Some root /\ staged n m first root file stat ran left /\
  forall x, exists run, allowed run /\ stat x = run x.
Proof.
  induction 1 as [faster order next o fuel late shuffle d num rounds cnt q file OK Al SH E
                 |faster order next o fuel late shuffle d num rounds cnt q file infile kept new C IH P U OK Al SH E
                 |fuel ord_c ord_b tools file infile kept new C IH P U Hc Hb HS Al E].
  - destruct (settings_sizes _ _ _ _ _ OK) as (Hn & Hm). do 2 (split; [assumption|]). unfold enumerate_tms in E.
    destruct (blank_tm_enum n m first) as [root|] eqn:Er; [|discriminate].
    pose proof (settings_truthful faster order next n m o fuel late OK) as T.
    assert (N : forall x, In x [root] -> node n m false first x) by (intros x [<-|[]]; now apply node_root).
    destruct (stage_run n m first Hn Hm _ _ _ _ _ _ _ _ _ T N SH E) as (ran & left & nodes & B & P & _ & _ & _ & _ & _ & HN).
    exists root, (run_status faster order next n m o fuel late), ran, left. split; [reflexivity|].
    split; [|intros x; eauto]. split; [exact T|]. split; [exact HN|]. split; [exact B|exact P].
  - destruct IH as (Hn & Hm & root & stat & ran & left & Er & S & IA). do 2 (split; [assumption|]).
    destruct (staged_take n m first root Hn Hm file stat ran left infile kept S P U) as (tabs & keep & EI & Pt & PK).
    pose proof (settings_truthful faster order next n m o fuel late OK) as T2. pose proof S as (T & N & _).
    assert (NT : forall x, In x tabs -> node n m false first x).
    { intros x Hx. assert (Hy : In x (tabs ++ keep)) by (apply in_app_iff; auto). apply (Permutation_in _ Pt), in_app_iff in Hy.
      apply N, in_app_iff. destruct Hy as [Hy|Hy]; [left; apply filter_In in Hy; tauto|auto]. }
    destruct (infile_tables faster order next n m o fuel late shuffle d num rounds infile tabs SH (read_unrun n m first infile tabs Hn Hm NT EI))
      as (sh' & SH' & E').
    rewrite E in E'. destruct (enum_main ttable _ _ _ _ sh' d num rounds 0 tabs [] []) as [((cnt', q'), out)|] eqn:EM; [|discriminate].
    cbn [option_map lift fst snd] in E'. injection E' as -> -> <-.
    destruct (stage_run n m first Hn Hm _ _ _ _ _ _ _ _ _ T2 NT SH' EM) as (ran2 & left2 & nodes2 & B2 & P2 & _ & _ & _ & F2 & I2 & N2).
    destruct (next_stage n m first root Hn Hm Er file stat ran left _ tabs keep kept ran2 left2 nodes2 new S T2 Pt PK B2 F2 I2 N2 P2) as (stat' & Q & S').
    exists root, stat', (filter (decided_as stat) ran ++ ran2), (keep ++ left2). split; [exact Er|]. split; [exact S'|].
    intros x. destruct (Q x) as [[-> _]| ->]; eauto.
  - destruct IH as (Hn & Hm & root & stat & ran & left & Er & S & IA). do 2 (split; [assumption|]).
    destruct (staged_take n m first root Hn Hm file stat ran left infile kept S P U) as (tabs & keep & EI & Pt & PK).
    pose proof (filter_truthful fuel ord_c ord_b tools n m Hc Hb HS ltac:(lia) ltac:(lia)) as T2. pose proof S as (T & N & _).
    assert (NT : forall x, In x tabs -> node n m false first x).
    { intros x Hx. assert (Hy : In x (tabs ++ keep)) by (apply in_app_iff; auto). apply (Permutation_in _ Pt), in_app_iff in Hy.
      apply N, in_app_iff. destruct Hy as [Hy|Hy]; [left; apply filter_In in Hy; tauto|auto]. }
    destruct (next_stage n m first root Hn Hm Er file stat ran left (filter_status fuel ord_c ord_b tools n m) tabs keep kept tabs [] tabs new S T2 Pt PK) as (stat' & Q & S').
    + rewrite no_children, !app_nil_r by apply filter_expand. reflexivity.
    + apply leaves, filter_expand.
    + apply incl_refl.
    + rewrite app_nil_r. exact NT.
    + cbn [map]. rewrite app_nil_r, (filtered_records fuel ord_c ord_b tools n m first Hn Hm infile tabs new NT EI E). reflexivity.
    + exists root, stat', (filter (decided_as stat) ran ++ tabs), (keep ++ []). split; [exact Er|]. split; [exact S'|].
      intros x. destruct (Q x) as [[-> _]| ->]; eauto.
Qed.

Section Campaign.
  Variables (allowed : (ttable -> status) -> Prop) (n m : nat) (first : bool) (file : list (proto_tm * status)).
  Hypothesis C : campaign allowed n m first file.

  (** Every record says the truth about the machine in it, as in C56. *)
  Theorem C64_records_true_partial r : In r file -> record_true n m (Some r).
  Proof.
    intros Hr. destruct (campaign_staged _ _ _ _ _ C) as (Hn & Hm & root & stat & ran & left & Er & (T & N & B & P) & _).
    apply (in_map Some), (Permutation_in _ P), in_app_iff in Hr. destruct Hr as [Hr|Hr]; apply in_map_iff in Hr; destruct Hr as (x & <- & Hx).
    - apply (rec_true n m false stat Hn Hm T first), N, in_app_iff. auto.
    - assert (Nx : node n m false first x) by (apply N, in_app_iff; auto).
      destruct (unrun_node n m first Hn Hm x Nx) as (p & Ep & _ & Rp). exists p, Unknown, x. do 2 (split; [assumption|]).
      split; [apply (node_std n m false Hn Hm first x Nx)|exact Logic.I].
  Qed.

  (** No machine is stored twice. *)
  Theorem C64_no_machine_twice : NoDup (map fst file).
  Proof.
    destruct (campaign_staged _ _ _ _ _ C) as (Hn & Hm & root & stat & ran & left & Er & S & _). pose proof S as (T & N & B & P).
    destruct (staged_tree n m first root Hn Hm Er file stat ran left S) as (nodes & rest & _ & _ & _ & _ & _ & ND).
    apply NoDup_app_inv' in ND. destruct ND as (D1 & D2 & D3).
    assert (SR : forall x, In x ran -> exists p, record_of n m stat x = Some (p, stat x) /\ read_tm p = Some (stored stat x, n, m)).
    { intros x Hx. destruct (rec_shape n m false stat Hn Hm T first x) as (b & E1 & E2 & _); [|eauto]. apply N, in_app_iff; auto. }
    assert (SL : forall x, In x left -> exists p, unrun_record n m x = Some (p, Unknown) /\ read_tm p = Some (x, n, m)).
    { intros x Hx. destruct (unrun_node n m first Hn Hm x) as (p & E1 & _ & E2); [apply N, in_app_iff; auto|eauto]. }
    assert (NR : forall x, In x ran -> node n m false first x) by (intros; apply N, in_app_iff; auto).
    assert (NL : forall x, In x left -> node n m false first x) by (intros; apply N, in_app_iff; auto).
    apply (NoDup_map_inv Some). rewrite map_map.
    replace (map (fun r : proto_tm * status => Some (fst r)) file) with (map (option_map fst) (map Some file)) by (rewrite map_map; reflexivity).
    eapply Permutation_NoDup; [apply Permutation_map, Permutation_sym, P|]. rewrite map_app, !map_map. apply NoDup_app_intro.
    - apply NoDup_map_in; [|exact D1]. intros x y Hx Hy Exy. destruct (SR x Hx) as (p & Ep & Rp), (SR y Hy) as (p' & Ep' & Rp').
      rewrite Ep, Ep' in Exy. cbn in Exy. injection Exy as <-. rewrite Rp in Rp'. injection Rp' as Rp'.
      apply (stored_inj n m false stat Hn Hm T first); auto.
    - apply NoDup_map_in; [|exact D2]. intros x y Hx Hy Exy. destruct (SL x Hx) as (p & Ep & Rp), (SL y Hy) as (p' & Ep' & Rp').
      rewrite Ep, Ep' in Exy. cbn in Exy. injection Exy as <-. rewrite Rp in Rp'. now injection Rp'.
    - intros a Ha Hb. apply in_map_iff in Ha, Hb. destruct Ha as (x & Ex & Hx), Hb as (y & Ey & Hy). subst a.
      destruct (SR x Hx) as (p & Ep & Rp), (SL y Hy) as (p' & Ep' & Rp').
      rewrite Ep, Ep' in Ey. cbn in Ey. injection Ey as ->. rewrite Rp in Rp'. injection Rp' as Rp'.
      apply (D3 x Hx). replace x with y; [exact Hy|]. symmetry. apply (stored_raw n m false stat Hn Hm T first); auto.
  Qed.

  (** Every machine of the class that halts is there, decided or as part of an undecided table, as in C56;
      here also when runs were stopped early. *)
  Theorem C64_no_machine_missed_partial M K Q A e t : in_range n m M -> halts_at M initial K Q A e t ->
    (first = true -> exists w0 d0 q0, M 0 0 = Go w0 d0 q0 /\ w0 <> 0 /\ q0 <> 0) ->
    exists tab s f g b, holds_record n m (map Some file) tab s /\ permutes n f /\ permutes m g /\ f 0 = 0 /\ g 0 = 0 /\
      sub_renamed f g b (table_of tab) M /\
      (s = Unknown \/
       exists sc q a, s = Halting (Z.of_nat K) (Z.of_nat sc) q a /\ f q = Q /\ g a = A /\
         forall sc' w d e, score t sc' -> M Q A = Stop w d e -> sc' <= sc /\ (w <> 0 -> sc' = sc)).
  Proof.
    intros HM (k & c & w & d' & -> & Ek & -> & -> & Es & Ht) H1.
    destruct (campaign_staged _ _ _ _ _ C) as (Hn & Hm & root & stat & ran & left & Er & S & _). pose proof S as (T & N & B & P).
    destruct (staged_tree n m first root Hn Hm Er file stat ran left S) as (nodes & rest & F & _ & HN & Fl & Pn & _).
    destruct (covered_node n m false stat Hn Hm T first root nodes M k c w d' e Er F HM Ek Es)
      as (tab & f & g & b & Hin & Pf & Pg & F0 & G0 & Sub & Cs).
    { destruct first.
      - destruct (H1 eq_refl) as (w0 & d0 & q0 & E0 & Hw0 & Hq0).
        assert (q0 < n /\ w0 < m) by (destruct (HM 0 0 _ _ _ ltac:(lia) ltac:(lia) E0); auto).
        apply (C43_no_machine_missed_1rb n m false M k c w d' e w0 d0 q0); auto; lia.
      - apply (C43_no_machine_missed n m false M k c w d' e); auto; lia. }
    pose proof Hin as Hin'. apply (Permutation_in _ Pn), in_app_iff in Hin'. destruct Hin' as [Hr|Hr].
    - destruct (rec_shape n m false stat Hn Hm T first tab (HN tab Hin)) as (p & E1 & E2 & _).
      exists (stored stat tab), (stat tab), f, g, b. split.
      { exists (Packed p). split; [|exact E2]. rewrite <- E1. apply (Permutation_in _ (Permutation_sym P)), in_app_iff. left. now apply in_map. }
      do 5 (split; [assumption|]). destruct Cs as [U|(sc & q1 & a & Hs & Hq & Ha & Sc)]; [left; exact U|right].
      exists sc, q1, a. do 3 (split; [assumption|]). intros sc' w1 d1 e1 Hsc' Ew. rewrite Es in Ew. injection Ew as <- <- <-. now apply (Sc t).
    - (* below a table that was not run *)
      assert (Dx : exists x, In x left /\ desc n m false x tab).
      { clear -Fl Hr T Hn Hm N. assert (HL : forall j, In j left -> node n m false first j) by (intros; apply N, in_app_iff; auto). clear N.
        induction Fl as [|j js a b F1 IH1 F2 IH2]; [destruct Hr|]. destruct Hr as [<-|Hr]; [exists j; split; [simpl; auto|constructor]|].
        apply in_app_iff in Hr. destruct Hr as [Hr|Hr].
        - assert (Nj : node n m false first j) by (apply HL; simpl; auto).
          destruct (IH1 Hr) as (x & Hx & D); [intros; eapply expand_is_node; eauto|]. exists j. split; [simpl; auto|].
          eapply desc_step; [|exact D]. revert Hx. unfold expand_job. destruct (halt_cell stat j) as [(i, s)|] eqn:Ec; [|intros []].
          destruct (cell_sound n m stat T j i s (node_std n m false Hn Hm first j Nj) Ec) as (k & sc & e & t & _ & _ & _ & Hh & _).
          destruct (enum_children j n m false i s) as [l|] eqn:El; [|intros []]. intros Hx. exists (Z.to_nat k), i, s, e, t, l. auto.
        - destruct IH2 as (x & Hx & D); [exact Hr|intros; apply HL; simpl; auto|]. exists x. simpl; auto. }
      destruct Dx as (x & Hx & D). assert (Nx : node n m false first x) by (apply N, in_app_iff; auto).
      destruct (unrun_node n m first Hn Hm x Nx) as (p & E1 & _ & E2). exists x, Unknown, f, g, b. split.
      { exists p. split; [|exact E2]. rewrite <- E1. apply (Permutation_in _ (Permutation_sym P)), in_app_iff. right. now apply in_map. }
      do 4 (split; [assumption|]). split; [|auto].
      destruct (node_tinv n m false first x ltac:(lia) ltac:(lia) Nx) as (a0 & c0 & Hi).
      destruct (node_tinv n m false first tab ltac:(lia) ltac:(lia) (HN tab Hin)) as (a1 & c1 & Hi1).
      intros i j w1 d1 q1 Eg. apply Sub. apply (desc_extends _ _ _ _ _ D _ _ Hi) in Eg. unfold stored.
      destruct (halt_cell stat tab) as [(q2, s2)|] eqn:Ec; [|exact Eg].
      destruct (cell_sound n m stat T tab q2 s2 (node_std n m false Hn Hm first tab (HN tab Hin)) Ec) as (k2 & sc & e2 & t2 & _ & _ & _ & Hh & _).
      destruct (halt_version n m a1 c1 tab _ _ _ _ _ Hi1 Hh) as (_ & _ & _ & X). now apply X.
  Qed.

  (** Records without an unknown one settle the class, however many runs it took. *)
  Theorem C64_settled K S : first = false ->
    (forall r, In r file -> match snd r with Unknown => False | Halting k sc _ _ => (k <= Z.of_nat K /\ sc <= Z.of_nat S)%Z | _ => True end) ->
    forall M k Q A e t sc, in_range n m M -> halts_at M initial k Q A e t -> score t sc -> k <= K /\ sc <= S.
  Proof.
    intros Hf H M k Q A e t sc HM Hh Hs. assert (Es : exists w d', M Q A = Stop w d' e) by (destruct Hh as (? & ? & w & d' & _ & _ & -> & -> & ? & _); eauto).
    destruct Es as (w & d' & Es).
    destruct (C64_no_machine_missed_partial M k Q A e t HM Hh) as (tab & s & f & g & b & (p & Hp & _) & _ & _ & _ & _ & _ & Cs); [congruence|].
    apply in_map_iff in Hp. destruct Hp as (r & Er & Hr). injection Er as ->. specialize (H _ Hr). cbn [snd] in H.
    destruct Cs as [->|(sc1 & q1 & a & -> & _ & _ & Sc)]; [easy|]. destruct (Sc _ _ _ _ Hs Es). lia.
  Qed.

  (** Any undecided records can be taken up again: the run ends, and with a limit too. *)
  Theorem C64_continues infile kept faster order next o fuel late shuffle d num :
    Permutation file (infile ++ kept) -> (forall r, In r infile -> undecided r = true) ->
    settings_ok order next n m o -> allowed (run_status faster order next n m o fuel late) -> (forall k l, Permutation (shuffle k l) l) ->
    exists k, forall rounds, k <= rounds -> exists cnt new,
      enumerate_infile faster order next o fuel late shuffle d num rounds infile = Some (cnt, [], map Some new) /\ campaign allowed n m first (kept ++ new) /\
      cnt = length new /\ (num = 0 -> forall r, In r new -> undecided r = true -> exists tab, read_tm (fst r) = Some (tab, n, m) /\ run_status faster order next n m o fuel late tab = Unknown).
  Proof.
    intros P U OK Al SH. destruct (campaign_staged _ _ _ _ _ C) as (Hn & Hm & root & stat & ran & left & Er & S & _). pose proof S as (T & N & _).
    destruct (staged_take n m first root Hn Hm file stat ran left infile kept S P U) as (tabs & keep & EI & Pt & PK).
    pose proof (settings_truthful faster order next n m o fuel late OK) as T2.
    assert (NT : forall x, In x tabs -> node n m false first x).
    { intros x Hx. assert (Hy : In x (tabs ++ keep)) by (apply in_app_iff; auto). apply (Permutation_in _ Pt), in_app_iff in Hy.
      apply N, in_app_iff. destruct Hy as [Hy|Hy]; [left; apply filter_In in Hy; tauto|auto]. }
    set (run := run_status faster order next n m o fuel late) in *.
    destruct (trees n m first Hn Hm run tabs T2 NT) as (nodes & F & HN).
    exists (length nodes + num). intros rounds Hr.
    destruct (infile_tables faster order next n m o fuel late shuffle d num rounds infile tabs SH (read_unrun n m first infile tabs Hn Hm NT EI))
      as (sh' & SH' & E'). fold run in E'.
    assert (EM : exists cnt q out, enum_main ttable _ (expand_job n m false run) (record_of n m run) (unrun_record n m) sh' d num rounds 0 tabs [] [] = Some (cnt, q, out)).
    { destruct (Nat.eq_dec num 0) as [->|N0].
      - destruct (C44_all_once (expand_job n m false run) (record_of n m run) (unrun_record n m) sh' d tabs nodes SH' F rounds ltac:(lia)) as (out & E & _). eauto.
      - destruct (C44_limit (expand_job n m false run) (record_of n m run) (unrun_record n m) sh' d num tabs rounds SH' ltac:(lia) ltac:(lia)) as (? & ? & out & E & _). eauto. }
    destruct EM as (cnt & q & out & EM).
    destruct (stage_run n m first Hn Hm _ _ _ _ _ _ _ _ _ T2 NT SH' EM) as (ran2 & left2 & nodes2 & B2 & P2 & L0 & -> & -> & F2 & I2 & N2).
    assert (X : exists new, out = map Some new).
    { assert (A : forall r, In r out -> r <> None).
      { intros r Hr'. apply (Permutation_in _ P2), in_app_iff in Hr'. destruct Hr' as [Hr'|Hr']; apply in_map_iff in Hr'; destruct Hr' as (x & <- & Hx).
        - destruct (rec_node n m first Hn Hm run x T2) as (p & ->); [apply N2, in_app_iff; auto|discriminate].
        - destruct (unrun_node n m first Hn Hm x) as (p & -> & _); [apply N2, in_app_iff; auto|discriminate]. }
      clear -A. induction out as [|r out IH]; [exists []; reflexivity|]. destruct IH as (new & ->); [intros; apply A; simpl; auto|].
      destruct r as [r|]; [exists (r :: new); reflexivity|]. exfalso. apply (A None); simpl; auto. }
    destruct X as (new & ->). rewrite EM in E'. cbn [option_map lift fst snd map] in E'. exists (length ran2 + length left2), new. split; [exact E'|].
    split; [eapply campaign_next; eauto|]. split.
    { apply Permutation_length in P2. rewrite app_length, !map_length in P2. lia. }
    intros Hz r Hr' Ur. rewrite (L0 Hz), app_nil_r in P2. apply (in_map Some), (Permutation_in _ P2), in_map_iff in Hr'. destruct Hr' as (x & Ex & Hx).
    assert (Nx : node n m false first x) by (apply N2, in_app_iff; auto).
    destruct (rec_shape n m false run Hn Hm T2 first x Nx) as (b & E1 & E2 & _). rewrite Ex in E1. injection E1 as ->. cbn [undecided snd fst] in *.
    exists (stored run x). split; [exact E2|]. unfold stored, halt_cell. unfold undecided in Ur. cbn [snd] in Ur. destruct (run x) eqn:Eq; try discriminate. exact Eq.
  Qed.
End Campaign.

(** With the same settings throughout, and the last of the runs without limit and on all undecided records,
    the records are those of one run. *)
Theorem C64_same_records n m first file infile kept new faster order next o fuel late sh1 d1 sh2 d2 r1 r2 cnt1 q1 cnt2 q2 out :
  campaign (fun run => forall x, run x = run_status faster order next n m o fuel late x) n m first file ->
  Permutation file (infile ++ kept) -> (forall r, In r infile -> undecided r = true) -> (forall r, In r kept -> undecided r = false) ->
  settings_ok order next n m o -> (forall k l, Permutation (sh1 k l) l) -> (forall k l, Permutation (sh2 k l) l) ->
  enumerate_infile faster order next o fuel late sh1 d1 0 r1 infile = Some (cnt1, q1, map Some new) ->
  enumerate_tms faster order next n m false o fuel late sh2 d2 first 0 r2 = Some (cnt2, q2, out) ->
  Permutation (map Some (kept ++ new)) out.
Proof.
  intros C P U K OK SH1 SH2 E1 E2. destruct (campaign_staged _ _ _ _ _ C) as (Hn & Hm & root & stat & ran & left & Er & S & IA).
  destruct (staged_take n m first root Hn Hm file stat ran left infile kept S P U) as (tabs & keep & EI & Pt & PK).
  pose proof (settings_truthful faster order next n m o fuel late OK) as T2. pose proof S as (T & N & _).
  set (run := run_status faster order next n m o fuel late) in *.
  assert (keep = []) as ->.
  { destruct keep as [|x keep]; [reflexivity|exfalso].
    assert (Nx : node n m false first x).
    { assert (Hy : In x (tabs ++ x :: keep)) by (apply in_elt). apply (Permutation_in _ Pt), in_app_iff in Hy.
      apply N, in_app_iff. destruct Hy as [Hy|Hy]; [left; apply filter_In in Hy; tauto|auto]. }
    destruct (unrun_node n m first Hn Hm x Nx) as (p & Ep & _).
    assert (Hi : In (Some (p, Unknown)) (map Some kept)).
    { apply (Permutation_in _ (Permutation_sym PK)), in_app_iff. right. rewrite <- Ep. simpl. auto. }
    apply in_map_iff in Hi. destruct Hi as (r & Hr1 & Hr2). injection Hr1 as ->. specialize (K _ Hr2). discriminate. }
  assert (NT : forall x, In x tabs -> node n m false first x).
  { intros x Hx. assert (Hy : In x (tabs ++ [])) by (apply in_app_iff; auto). apply (Permutation_in _ Pt), in_app_iff in Hy.
    apply N, in_app_iff. destruct Hy as [Hy|Hy]; [left; apply filter_In in Hy; tauto|auto]. }
  destruct (infile_tables faster order next n m o fuel late sh1 d1 0 r1 infile tabs SH1 (read_unrun n m first infile tabs Hn Hm NT EI))
    as (sh' & SH' & E'). fold run in E'. rewrite E1 in E'.
  destruct (enum_main ttable _ _ _ _ sh' d1 0 r1 0 tabs [] []) as [((cnt', q'), out')|] eqn:EM; [|discriminate].
  cbn [option_map lift fst snd] in E'. injection E' as -> -> <-.
  destruct (stage_run n m first Hn Hm _ _ _ _ _ _ _ _ _ T2 NT SH' EM) as (ran2 & left2 & nodes2 & B2 & P2 & L0 & _ & _ & F2 & I2 & N2).
  destruct (next_stage n m first root Hn Hm Er file stat ran left _ tabs [] kept ran2 left2 nodes2 new S T2 Pt PK B2 F2 I2 N2 P2) as (stat' & Q & S').
  rewrite (L0 eq_refl) in S'. cbn [app] in S'.
  assert (ES : forall x, stat' x = run x).
  { intros x. destruct (Q x) as [[-> _]| ->]; [|reflexivity]. destruct (IA x) as (r & Hr & ->). apply Hr. }
  set (all := filter (decided_as stat) ran ++ ran2) in *. pose proof S' as (T' & N' & B' & P'). cbn [map] in P'. rewrite app_nil_r in P'.
  destruct (staged_tree n m first root Hn Hm Er _ _ _ _ S') as (nodes & rest & F & _ & _ & F0 & Pn & _). inversion F0; subst rest. rewrite app_nil_r in Pn.
  assert (FR : forest (expand_job n m false run) [root] nodes).
  { apply (forest_ext _ _ _ _ F). intros x _. unfold expand_job, halt_cell. now rewrite ES. }
  unfold enumerate_tms in E2. rewrite Er in E2. fold run in E2.
  destruct (C44_all_once (expand_job n m false run) (record_of n m run) (unrun_record n m) sh2 d2 [root] nodes SH2 FR (length nodes + r2) ltac:(lia)) as (out2 & E3 & P3).
  pose proof (main_mono (expand_job n m false run) (record_of n m run) (unrun_record n m) sh2 d2 0 r2 _ _ _ _ _ (length nodes + r2) ltac:(lia) E2) as E4.
  rewrite E3 in E4. injection E4 as _ _ <-. rewrite P', P3, (Permutation_map _ Pn).
  rewrite (map_ext _ (record_of n m run)) by (intros x; unfold record_of; now rewrite ES). reflexivity.
Qed.

(** The records of a run.  In the examples: the class of 2 states and 2 symbols with the default options. *)
Definition file_of {Q} (res : option (nat * Q * list (option (proto_tm * status)))) : list (proto_tm * status) :=
  match res with Some (_, _, out) => flat_map (fun r => match r with Some r => [r] | None => [] end) out | None => [] end.
Notation first_run allow num := (enumerate_tms twice (fun _ l => l) (fun _ => 0) 2 2 allow defaults (Z.to_nat 5000) (fun _ => false)
  (fun _ l => l) LIFO false num (Z.to_nat 1000)).
Notation next_run num infile := (enumerate_infile twice (fun _ l => l) (fun _ => 0) defaults (Z.to_nat 5000) (fun _ => false)
  (fun _ l => l) LIFO num (Z.to_nat 1000) infile).

(** Three machines, then five more, then the rest: 61 records, the champions of the class among them. *)
Definition stage_1 := file_of (first_run false 3).
Definition stage_2 := filter (fun r => negb (undecided r)) stage_1 ++ file_of (next_run 5 (filter undecided stage_1)).
Definition stage_3 := filter (fun r => negb (undecided r)) stage_2 ++ file_of (next_run 0 (filter undecided stage_2)).
Definition the_run := run_status twice (fun _ l => l) (fun _ => 0) 2 2 defaults (Z.to_nat 5000) (fun _ => false).

Lemma taken (file : list (proto_tm * status)) : Permutation file (filter undecided file ++ filter (fun r => negb (undecided r)) file).
Proof. apply perm_split. Qed.
Lemma taken_open (file : list (proto_tm * status)) r : In r (filter undecided file) -> undecided r = true.
Proof. intros H. apply filter_In in H. tauto. Qed.

Lemma taken_decided (file : list (proto_tm * status)) r : In r (filter (fun r => negb (undecided r)) file) -> undecided r = false.
Proof. intros H. apply filter_In in H. now apply negb_true_iff. Qed.
Lemma stage_1_run : first_run false 3 = Some (13, [], map Some stage_1).
Proof. vm_cast_no_check (@eq_refl _ (Some (13, @nil ttable, map Some stage_1))). Qed.
Lemma stage_2_run : next_run 5 (filter undecided stage_1) = Some (18, [], map Some (file_of (next_run 5 (filter undecided stage_1)))).
Proof. vm_cast_no_check (@eq_refl _ (next_run 5 (filter undecided stage_1))). Qed.
Lemma stage_3_run : next_run 0 (filter undecided stage_2) = Some (53, [], map Some (file_of (next_run 0 (filter undecided stage_2)))).
Proof. vm_cast_no_check (@eq_refl _ (next_run 0 (filter undecided stage_2))). Qed.
Example stages_counted :
  (length stage_1, length (filter undecided stage_1), length stage_2, length (filter undecided stage_2), length stage_3, filter undecided stage_3)
  = (13, 10, 21, 13, 61, []).
Proof. vm_compute. reflexivity. Qed.
Example stage_1_campaign : campaign (fun run => forall x, run x = the_run x) 2 2 false stage_1.
Proof. eapply campaign_first; [apply settings_2_2| |apply (fun k l => Permutation_refl _)|exact stage_1_run]. reflexivity. Qed.
Example C64_stages : campaign (fun run => forall x, run x = the_run x) 2 2 false stage_3 /\
  (forall r, In r stage_3 -> match snd r with Unknown => False | Halting k sc _ _ => (k <= 6 /\ sc <= 4)%Z | _ => True end).
Proof.
  split.
  - assert (C2 : campaign (fun run => forall x, run x = the_run x) 2 2 false stage_2).
    { eapply campaign_next; [exact stage_1_campaign|apply taken|apply taken_open|apply settings_2_2| |apply (fun k l => Permutation_refl _)|exact stage_2_run]. reflexivity. }
    eapply campaign_next; [exact C2|apply taken|apply taken_open|apply settings_2_2| |apply (fun k l => Permutation_refl _)|exact stage_3_run]. reflexivity.
  - intros r Hr. assert (F : forallb (fun r => match snd r with Unknown => false | Halting k sc _ _ => (k <=? 6)%Z && (sc <=? 4)%Z | _ => true end) stage_3 = true)
      by (vm_cast_no_check (@eq_refl bool true)).
    rewrite forallb_forall in F. specialize (F r Hr). clear Hr. destruct (snd r); [discriminate F| |exact Logic.I]. apply andb_prop in F. lia.
Qed.
(** so no machine of the class runs longer or writes more *)
Example C64_stages_settle M k Q A e t sc : in_range 2 2 M -> halts_at M initial k Q A e t -> score t sc -> k <= 6 /\ sc <= 4.
Proof. apply (C64_settled _ 2 2 false stage_3 (proj1 C64_stages) 6 4 eq_refl (proj2 C64_stages)). Qed.
(** and they are the records of one run *)
Example C64_stages_same : Permutation (map Some stage_3) (map Some (file_of (first_run false 0))).
Proof.
  assert (C2 : campaign (fun run => forall x, run x = the_run x) 2 2 false stage_2).
  { eapply campaign_next; [exact stage_1_campaign|apply taken|apply taken_open|apply settings_2_2| |apply (fun k l => Permutation_refl _)|exact stage_2_run]. reflexivity. }
  eapply C64_same_records; [exact C2|apply taken|apply taken_open|apply taken_decided|apply settings_2_2| | |exact stage_3_run|].
  - intros; apply Permutation_refl.
  - instantiate (1 := fun _ l => l). intros; apply Permutation_refl.
  - instantiate (1 := []). instantiate (1 := 61). instantiate (1 := Z.to_nat 1000). instantiate (1 := LIFO).
    vm_cast_no_check (@eq_refl _ (first_run false 0)).
Qed.

(** The help text says that one can continue with the file of a run.  With the file as it is, the halting
    machines in it are run and expanded again: 13 records become 221, in a class of 61. *)
Theorem C64_whole_file_refuted : exists infile cnt new,
  campaign (fun run => forall x, run x = the_run x) 2 2 false infile /\ next_run 0 infile = Some (cnt, [], map Some new) /\
  cnt = 221 /\ length stage_3 = 61 /\ ~ NoDup (map fst new).
Proof.
  exists stage_1, 221, (file_of (next_run 0 stage_1)). split; [exact stage_1_campaign|].
  split; [vm_cast_no_check (@eq_refl _ (next_run 0 stage_1))|]. split; [reflexivity|]. split; [vm_compute; reflexivity|]. intros ND.
  destruct (NoDup_nth_error (map fst (file_of (next_run 0 stage_1)))) as (H & _).
  assert (X : nth_error (map fst (file_of (next_run 0 stage_1))) 2 = nth_error (map fst (file_of (next_run 0 stage_1))) 122) by (vm_compute; reflexivity).
  assert (Q : 2 = 122); [|discriminate]. apply (H ND); [vm_compute; lia|exact X].
Qed.
Definition is_lost (r : proto_tm * status) : bool :=
  match r with (Packed [210; 82; 146; 74], Infinite FromReverse M_LinRecur.QUndecided)%Z => true | _ => false end.
Lemma lost_In l : existsb is_lost l = true -> In (Packed [210; 82; 146; 74]%Z, Infinite FromReverse M_LinRecur.QUndecided) l.
Proof.
  intros X. apply existsb_exists in X. destruct X as (([b|], s) & Hin & H); [|discriminate]. unfold is_lost in H.
  repeat match type of H with match ?x with _ => _ end = true => destruct x; try discriminate H end. exact Hin.
Qed.
(** With [--allow-no-halt] the records do not say so, and the run that continues does not know it: 88 of
    the 149 machines are lost, among them this one. *)
Theorem C64_allow_no_halt_refuted : exists file new full p s,
  first_run true 3 = Some (13, [], map Some file) /\ next_run 0 (filter undecided file) = Some (58, [], map Some new) /\
  first_run true 0 = Some (149, [], map Some full) /\ In (p, s) full /\ forall r, In r (file ++ new) -> fst r <> p.
Proof.
  exists (file_of (first_run true 3)), (file_of (next_run 0 (filter undecided (file_of (first_run true 3))))), (file_of (first_run true 0)),
    (Packed [210; 82; 146; 74]%Z), (Infinite FromReverse M_LinRecur.QUndecided).
  split; [vm_cast_no_check (@eq_refl _ (first_run true 3))|].
  split; [vm_cast_no_check (@eq_refl _ (next_run 0 (filter undecided (file_of (first_run true 3)))))|].
  split; [vm_cast_no_check (@eq_refl _ (first_run true 0))|]. split.
  - apply lost_In. vm_cast_no_check (@eq_refl bool true).
  - intros r Hr. assert (F : forallb (fun r => match fst r with Packed [210; 82; 146; 74]%Z => false | _ => true end)
      (file_of (first_run true 3) ++ file_of (next_run 0 (filter undecided (file_of (first_run true 3))))) = true) by (vm_cast_no_check (@eq_refl bool true)).
    rewrite forallb_forall in F. specialize (F r Hr). intros E. rewrite E in F. discriminate.
Qed.

Print Assumptions C64_records_true_partial.
Print Assumptions C64_no_machine_twice.
Print Assumptions C64_no_machine_missed_partial.
Print Assumptions C64_settled.
Print Assumptions C64_continues.
Print Assumptions C64_same_records.
Print Assumptions C64_whole_file_refuted.
Print Assumptions C64_allow_no_halt_refuted.
