(** * C66: enumerating, filtering and going on

    CTL_Filter.py, CPS_Filter.py and Reverse_Engineer_Filter.py on the undecided records of Enumerate.py, between
    its runs.  The campaigns of C64 contain such steps, so C64_records_true_partial, C64_no_machine_twice,
    C64_no_machine_missed_partial and C64_settled speak about them too. *)
Require Import ZArith List Lia Bool Arith Permutation.
From Verif Require Import Spec_TM Spec_Rename M_Turing_Machine M_Direct M_Tape M_Simulator M_Settings M_LinRecur M_Filters M_IO M_Enum M_Pipeline M_Enumerate M_Resume M_Campaign
  P_Macro P_Quint P_IO P_Tree P_Complete P_Complete2 P_Unique P_TNF2 P_Queue P_EnumTree P_Enumerate P_Resume P_Campaign Prop_LinRecur Prop_IO Prop_Enum Prop_Count Prop_Pipeline Prop_Enumerate Prop_Resume.
From Verif Require M_Tools M_CTL M_CPS P_Tools Prop_Tools.
Import ListNotations.
Open Scope nat_scope.

Definition halting (r : proto_tm * status) : bool := match snd r with Halting _ _ _ _ => true | _ => false end.

(** the undecided records of a campaign, as tables *)
Lemma taken_tables allowed n m first file infile kept : campaign allowed n m first file ->
  Permutation file (infile ++ kept) -> (forall r, In r infile -> undecided r = true) ->
  0 < n <= 7 /\ 1 < m <= 7 /\ exists tabs, (forall x, In x tabs -> node n m false first x) /\ map Some infile = map (unrun_record n m) tabs.
Proof.
  intros C P U. destruct (campaign_staged _ _ _ _ _ C) as (Hn & Hm & root & stat & ran & left & Er & S & _). do 2 (split; [assumption|]).
  destruct (staged_take n m first root Hn Hm file stat ran left infile kept S P U) as (tabs & keep & EI & Pt & _). pose proof S as (_ & N & _).
  exists tabs. split; [|exact EI]. intros x Hx. assert (Hy : In x (tabs ++ keep)) by (apply in_app_iff; auto).
  apply (Permutation_in _ Pt), in_app_iff in Hy. apply N, in_app_iff. destruct Hy as [Hy|Hy]; [left; apply filter_In in Hy; tauto|auto].
Qed.

(** The tools write every record they are given, with the same machine, in the same order; a record they
    decide is one of a machine that does not halt, and nothing is said about quasihalting. *)
Theorem C66_filter_step allowed n m first file infile kept fuel ord_c ord_b tools new :
  campaign allowed n m first file -> Permutation file (infile ++ kept) -> (forall r, In r infile -> undecided r = true) ->
  (forall l x, In x (ord_c l) <-> In x l) -> (forall l x, In x (ord_b l) <-> In x l) -> Forall P_Tools.tool_sound tools ->
  filter_run fuel ord_c ord_b tools infile = Some new ->
  map fst new = map fst infile /\
  forall p s, In (p, s) new -> s = Unknown \/
    exists why tab, s = Infinite why QUndecided /\ read_tm p = Some (tab, n, m) /\ nonhalting (table_of tab) initial.
Proof.
  intros C P U Hc Hb HS E. destruct (taken_tables _ _ _ _ _ _ _ C P U) as (Hn & Hm & tabs & N & EI).
  pose proof (filtered_records fuel ord_c ord_b tools n m first Hn Hm infile tabs new N EI E) as R.
  pose proof (filter_truthful fuel ord_c ord_b tools n m Hc Hb HS ltac:(lia) ltac:(lia)) as T. split.
  - clear E P U. revert infile new EI R. induction tabs as [|x tabs IH]; intros [|r infile] [|r' new] EI R; try discriminate; [reflexivity|].
    cbn [map] in *. injection EI as E1 E2. injection R as R1 R2. f_equal; [|apply IH; auto; intros; apply N; simpl; auto].
    destruct (unrun_node n m first Hn Hm x (N x (or_introl eq_refl))) as (p & Ep & Wp & _).
    unfold record_of in R1. rewrite Wp in R1. rewrite Ep in E1. injection E1 as ->.
    destruct (filter_status_cases fuel ord_c ord_b tools n m x) as [X|(s & X)]; rewrite X in R1; injection R1 as ->; reflexivity.
  - intros p s Hi. apply (in_map Some) in Hi. rewrite R in Hi. apply in_map_iff in Hi. destruct Hi as (x & Ex & Hx). specialize (N x Hx).
    destruct (rec_shape n m false _ Hn Hm T first x N) as (b & E1 & E2 & _). rewrite E1 in Ex. injection Ex as <- <-.
    destruct (filter_status_cases fuel ord_c ord_b tools n m x) as [X|(s & X)]; [left; exact X|right]. exists s, x. split; [exact X|].
    unfold stored, halt_cell in E2. rewrite X in E2. split; [exact E2|]. specialize (T x (node_std n m false Hn Hm first x N)). rewrite X in T.
    apply T. auto.
Qed.

(** With options that the tools accept and enough time they come to an end. *)
Theorem C66_filter_ends allowed n m first file infile kept ord_c ord_b x :
  campaign allowed n m first file -> Permutation file (infile ++ kept) -> (forall r, In r infile -> undecided r = true) ->
  (forall l x, In x (ord_c l) <-> In x l) -> (forall l x, In x (ord_b l) <-> In x l) -> Prop_Tools.tool_valid x ->
  exists F, forall fuel, F <= fuel -> exists new, filter_run fuel ord_c ord_b [x] infile = Some new.
Proof.
  intros C P U Hc Hb V. destruct (taken_tables _ _ _ _ _ _ _ C P U) as (Hn & Hm & tabs & N & EI).
  pose proof (tool_records_of n m first Hn Hm infile tabs N EI) as R.
  destruct (Prop_Tools.C60_tools_end ord_c ord_b x (map (fun x => M_Tools.fresh_record x n m) tabs) Hc Hb V) as (F & H).
  { apply Forall_forall. intros r Hr. apply in_map_iff in Hr. destruct Hr as (y & <- & Hy). apply P_Tools.fresh_true, std_wf; try lia.
    apply (node_std n m false Hn Hm first y (N y Hy)). }
  exists F. intros fuel Hf. destruct (H fuel Hf) as (out & E & _). unfold filter_run. rewrite R, E. eauto.
Qed.

(** If the tools leave nothing undecided, the records that were decided before settle the class. *)
Theorem C66_settles allowed n m file infile kept fuel ord_c ord_b tools new K S :
  campaign allowed n m false file -> Permutation file (infile ++ kept) -> (forall r, In r infile -> undecided r = true) ->
  (forall l x, In x (ord_c l) <-> In x l) -> (forall l x, In x (ord_b l) <-> In x l) -> Forall P_Tools.tool_sound tools ->
  filter_run fuel ord_c ord_b tools infile = Some new -> (forall r, In r new -> undecided r = false) ->
  (forall r, In r kept -> match snd r with Unknown => False | Halting k sc _ _ => (k <= Z.of_nat K /\ sc <= Z.of_nat S)%Z | _ => True end) ->
  forall M k Q A e t sc, Spec_Rename.in_range n m M -> halts_at M initial k Q A e t -> score t sc -> k <= K /\ sc <= S.
Proof.
  intros C P U Hc Hb HS E D HK.
  assert (C' : campaign (fun _ => True) n m false (kept ++ new)).
  { eapply campaign_filter; eauto. clear - C. induction C; [eapply campaign_first|eapply campaign_next|eapply campaign_filter]; eauto. }
  apply (C64_settled _ _ _ _ _ C' K S eq_refl). intros r Hr. apply in_app_iff in Hr. destruct Hr as [Hr|Hr]; [exact (HK r Hr)|].
  destruct (C66_filter_step _ _ _ _ _ _ _ _ _ _ _ _ C P U Hc Hb HS E) as (_ & H). destruct r as (p, s). specialize (D _ Hr). cbn [snd].
  destruct (H p s Hr) as [->|(why & tab & -> & _)]; [discriminate|exact Logic.I].
Qed.

(** Filtering in between changes no result of the enumeration: runs with the same settings, filters in any
    number and order between them, the last run without limit on all undecided records.  The stored machines
    and the records of halting machines are those of a single run without filters. *)
Definition run_or_filter (run : ttable -> status) (n m : nat) (r : ttable -> status) : Prop :=
  (forall x, r x = run x) \/ exists fuel ord_c ord_b tools,
    (forall l x, In x (ord_c l) <-> In x l) /\ (forall l x, In x (ord_b l) <-> In x l) /\ Forall P_Tools.tool_sound tools /\
    forall x, r x = filter_status fuel ord_c ord_b tools n m x.
Theorem C66_same_halting n m first file infile kept new faster order next o fuel late sh1 d1 sh2 d2 r1 r2 cnt1 q1 cnt2 q2 out :
  campaign (run_or_filter (run_status faster order next n m o fuel late) n m) n m first file ->
  Permutation file (infile ++ kept) -> (forall r, In r infile -> undecided r = true) -> (forall r, In r kept -> undecided r = false) ->
  settings_ok order next n m o -> (forall k l, Permutation (sh1 k l) l) -> (forall k l, Permutation (sh2 k l) l) ->
  enumerate_infile faster order next o fuel late sh1 d1 0 r1 infile = Some (cnt1, q1, map Some new) ->
  enumerate_tms faster order next n m false o fuel late sh2 d2 first 0 r2 = Some (cnt2, q2, map Some out) ->
  Permutation (map fst (kept ++ new)) (map fst out) /\ Permutation (filter halting (kept ++ new)) (filter halting out).
Proof.
  intros C P U K OK SH1 SH2 E1 E2. destruct (campaign_staged _ _ _ _ _ C) as (Hn & Hm & root & stat & ran & left & Er & S & IA).
  destruct (staged_take n m first root Hn Hm file stat ran left infile kept S P U) as (tabs & keep & EI & Pt & PK).
  pose proof (settings_truthful faster order next n m o fuel late OK) as T2. pose proof S as (T & N & _).
  set (run := run_status faster order next n m o fuel late) in *.
  assert (keep = []) as ->.
  { destruct keep as [|x keep]; [reflexivity|exfalso].
    assert (Nx : node n m false first x).
    { assert (Hy : In x (tabs ++ x :: keep)) by (apply in_elt). apply (Permutation_in _ Pt), in_app_iff in Hy.
      apply N, in_app_iff. destruct Hy as [Hy|Hy]; [left; apply filter_In in Hy; tauto|auto]. }
    destruct (unrun_node n m first Hn Hm x Nx) as (p & Ep & _).
    assert (Hi : In (Some (p, Unknown)) (map Some kept)).
    { apply (Permutation_in _ (Permutation_sym PK)), in_app_iff. right. rewrite <- Ep. simpl. auto. }
    apply in_map_iff in Hi. destruct Hi as (r & Hr1 & Hr2). injection Hr1 as ->. specialize (K _ Hr2). discriminate. }
  assert (NT : forall x, In x tabs -> node n m false first x).
  { intros x Hx. assert (Hy : In x (tabs ++ [])) by (apply in_app_iff; auto). apply (Permutation_in _ Pt), in_app_iff in Hy.
    apply N, in_app_iff. destruct Hy as [Hy|Hy]; [left; apply filter_In in Hy; tauto|auto]. }
  destruct (infile_tables faster order next n m o fuel late sh1 d1 0 r1 infile tabs SH1 (read_unrun n m first infile tabs Hn Hm NT EI))
    as (sh' & SH' & E'). fold run in E'. rewrite E1 in E'.
  destruct (enum_main ttable _ _ _ _ sh' d1 0 r1 0 tabs [] []) as [((cnt', q'), out')|] eqn:EM; [|discriminate].
  cbn [option_map lift fst snd] in E'. injection E' as -> -> <-.
  destruct (stage_run n m first Hn Hm _ _ _ _ _ _ _ _ _ T2 NT SH' EM) as (ran2 & left2 & nodes2 & B2 & P2 & L0 & _ & _ & F2 & I2 & N2).
  destruct (next_stage n m first root Hn Hm Er file stat ran left _ tabs [] kept ran2 left2 nodes2 new S T2 Pt PK B2 F2 I2 N2 P2) as (stat' & Q & S').
  rewrite (L0 eq_refl) in S'. cbn [app] in S'.
  (* the two statuses of a table *)
  assert (ES : forall x, std_table n m x -> stat' x = run x \/
                (exists w b, stat' x = Infinite w b) /\ (run x = Unknown \/ exists w b, run x = Infinite w b)).
  { intros x Hx. destruct (Q x) as [[E D]|E]; [|left; exact E]. destruct (IA x) as (r & [Hr|(f & oc & ob & ts & Hc & Hb & HS & Hr)] & Es); [left; congruence|right].
    rewrite Hr in Es. destruct (filter_status_cases f oc ob ts n m x) as [X|(s & X)].
    - unfold decided_as in D. rewrite Es, X in D. discriminate.
    - split; [exists s, QUndecided; congruence|]. pose proof (filter_truthful f oc ob ts n m Hc Hb HS ltac:(lia) ltac:(lia) x Hx) as NH. rewrite X in NH.
      pose proof (T2 x Hx) as TR. destruct (run x) as [|k sc q a|w b]; [auto| |eauto]. exfalso.
      destruct TR as (_ & _ & e & t & Hh & _). exact (P_Tools.halts_not_nonhalting _ _ _ _ _ _ Hh (proj1 NH (or_intror Logic.I))). }
  set (all := filter (decided_as stat) ran ++ ran2) in *. pose proof S' as (T' & N' & B' & P'). cbn [map] in P'. rewrite app_nil_r in P'.
  destruct (staged_tree n m first root Hn Hm Er _ _ _ _ S') as (nodes & rest & F & _ & NN & F0 & Pn & _). inversion F0; subst rest. rewrite app_nil_r in Pn.
  assert (SN : forall x, In x nodes -> std_table n m x) by (intros x Hx; apply (node_std n m false Hn Hm first), NN, Hx).
  assert (FR : forest (expand_job n m false run) [root] nodes).
  { apply (forest_ext _ _ _ _ F). intros x Hx. unfold expand_job, halt_cell.
    destruct (ES x (SN x Hx)) as [->|((w & b & ->) & [->|(w' & b' & ->)])]; reflexivity. }
  unfold enumerate_tms in E2. rewrite Er in E2. fold run in E2.
  destruct (C44_all_once (expand_job n m false run) (record_of n m run) (unrun_record n m) sh2 d2 [root] nodes SH2 FR (length nodes + r2) ltac:(lia)) as (out2 & E3 & P3).
  pose proof (main_mono (expand_job n m false run) (record_of n m run) (unrun_record n m) sh2 d2 0 r2 _ _ _ _ _ (length nodes + r2) ltac:(lia) E2) as E4.
  rewrite E3 in E4. injection E4 as _ _ ->.
  assert (RS : forall x, In x nodes -> option_map fst (record_of n m stat' x) = option_map fst (record_of n m run x) /\
     filter (fun r => match r with Some r => halting r | None => true end) [record_of n m stat' x] =
     filter (fun r => match r with Some r => halting r | None => true end) [record_of n m run x]).
  { intros x Hx. unfold record_of. destruct (ES x (SN x Hx)) as [->|((w & b & ->) & [->|(w' & b' & ->)])]; [auto| |];
      destruct (write_std n m Hn Hm x (SN x Hx)) as (b0 & -> & _); split; reflexivity. }
  rewrite <- Pn in P'. split.
  - apply (perm_some_inv (map fst (kept ++ new)) (map fst out)).
    replace (map Some (map fst (kept ++ new))) with (map (option_map fst) (map Some (kept ++ new))) by (rewrite !map_map; reflexivity).
    replace (map Some (map fst out)) with (map (option_map fst) (map Some out)) by (rewrite !map_map; reflexivity).
    rewrite P', P3, !map_map. rewrite (map_ext_in _ (fun x => option_map fst (record_of n m run x))); [reflexivity|]. intros x Hx. apply RS, Hx.
  - apply perm_some_inv. set (h := fun r : option (proto_tm * status) => match r with Some r => halting r | None => true end) in *.
    assert (FM : forall l, map Some (filter halting l) = filter h (map Some l)).
    { induction l as [|a l IH]; [reflexivity|]. cbn [filter map]. unfold h at 1. destruct (halting a); cbn [map]; now rewrite IH. }
    rewrite !FM. etransitivity; [apply perm_filter, P'|]. etransitivity; [|apply Permutation_sym, perm_filter, P3].
    assert (X : forall l, incl l nodes -> filter h (map (record_of n m stat') l) = filter h (map (record_of n m run) l)).
    { induction l as [|x l IH]; intros I; [reflexivity|]. cbn [map].
      change (filter h ([record_of n m stat' x] ++ map (record_of n m stat') l) = filter h ([record_of n m run x] ++ map (record_of n m run) l)).
      rewrite !filter_app, IH by (intros y Hy; apply I; simpl; auto). f_equal. apply RS, I. simpl; auto. }
    rewrite X by apply incl_refl. reflexivity.
Qed.

(** ** The class of 2 states and 2 symbols *)
Definition the_tools : list M_Tools.tool :=
  [M_Tools.Tool_reverse; M_Tools.Tool_ctl (M_Tools.CtlOptions M_CTL.CTL2 None 0 false 200%Z 1 3 false);
   M_Tools.Tool_cps (M_Tools.CpsOptions 1 2 0 1000%Z 500%Z 10000%Z 10000%Z)].
Lemma the_tools_sound : Forall P_Tools.tool_sound the_tools.
Proof. unfold the_tools. constructor; [exact Logic.I|]. constructor; [cbn; discriminate|]. constructor; [cbn; lia|constructor]. Qed.
Notation filters infile := (filter_run 1000 (fun l => l) (fun l => l) the_tools infile).
Definition filtered (infile : list (proto_tm * status)) : list (proto_tm * status) := match filters infile with Some l => l | None => [] end.
Definition decided_of (file : list (proto_tm * status)) := filter (fun r => negb (undecided r)) file.

(** A run that only simulates, for 20 loops, stopped after 12 machines; the filters; the same run on what is
    left; the filters again. *)
Definition weak : options := but false 0 1 false false 20 M_Pipeline.Plain.
Lemma weak_ok : settings_ok (fun _ l => l) (fun _ => 0) 2 2 weak.
Proof.
  split; [lia|]. split; [lia|]. split; [intros A l; apply incl_refl|]. split; [now apply plain_trusted; [|cbn; lia]|].
  right. exists 1. split; [reflexivity|]. split; apply ten_thousand; vm_compute; discriminate.
Qed.
Notation weak_first num := (enumerate_tms twice (fun _ l => l) (fun _ => 0) 2 2 false weak (Z.to_nat 5000) (fun _ => false)
  (fun _ l => l) FIFO false num (Z.to_nat 1000)).
Notation weak_next infile := (enumerate_infile twice (fun _ l => l) (fun _ => 0) weak (Z.to_nat 5000) (fun _ => false)
  (fun _ l => l) LIFO 0 (Z.to_nat 1000) infile).
(* the files are written out, so that a checker without virtual machine compares with normal forms *)
Definition file_1 := Eval vm_compute in file_of (weak_first 12).
Definition open_1 := Eval vm_compute in filter undecided file_1.
Definition filtered_1 := Eval vm_compute in filtered open_1.
Definition file_2 := Eval vm_compute in decided_of file_1 ++ filtered_1.
Definition open_2 := Eval vm_compute in filter undecided file_2.
Definition new_2 := Eval vm_compute in file_of (weak_next open_2).
Definition file_3 := Eval vm_compute in decided_of file_2 ++ new_2.
Definition open_3 := Eval vm_compute in filter undecided file_3.
Definition filtered_3 := Eval vm_compute in filtered open_3.
Definition file_4 := Eval vm_compute in decided_of file_3 ++ filtered_3.
Lemma open_1_eq : filter undecided file_1 = open_1. Proof. vm_cast_no_check (@eq_refl _ open_1). Qed.
Lemma open_2_eq : filter undecided file_2 = open_2. Proof. vm_cast_no_check (@eq_refl _ open_2). Qed.
Lemma open_3_eq : filter undecided file_3 = open_3. Proof. vm_cast_no_check (@eq_refl _ open_3). Qed.
Lemma file_2_eq : file_2 = decided_of file_1 ++ filtered_1. Proof. vm_cast_no_check (@eq_refl _ file_2). Qed.
Lemma file_3_eq : file_3 = decided_of file_2 ++ new_2. Proof. vm_cast_no_check (@eq_refl _ file_3). Qed.
Lemma file_1_run : weak_first 12 = Some (29, [], map Some file_1).
Proof.
  assert (E : map Some file_1 = ltac:(let x := eval vm_compute in (map Some file_1) in exact x)) by reflexivity. rewrite E. clear E.
  match goal with |- _ = ?x => vm_cast_no_check (@eq_refl _ x) end.
Qed.
Lemma file_3_run : weak_next (filter undecided file_2) = Some (37, [], map Some new_2).
Proof.
  rewrite open_2_eq.
  assert (E : map Some new_2 = ltac:(let x := eval vm_compute in (map Some new_2) in exact x)) by reflexivity. rewrite E. clear E.
  match goal with |- _ = ?x => vm_cast_no_check (@eq_refl _ x) end.
Qed.
Lemma filters_2 : filters (filter undecided file_1) = Some filtered_1.
Proof. rewrite open_1_eq. vm_cast_no_check (@eq_refl _ (Some filtered_1)). Qed.
Lemma filters_4 : filters (filter undecided file_3) = Some filtered_3.
Proof. rewrite open_3_eq. vm_cast_no_check (@eq_refl _ (Some filtered_3)). Qed.
Lemma same_list {A} (l : list A) x : In x l <-> In x l.
Proof. reflexivity. Qed.

Example files_counted : map (fun f => (length f, length (filter undecided f))) [file_1; file_2; file_3; file_4] = [(29, 18); (29, 5); (61, 1); (61, 0)].
Proof. vm_compute. reflexivity. Qed.
Example file_3_campaign : campaign (run_or_filter (run_status twice (fun _ l => l) (fun _ => 0) 2 2 weak (Z.to_nat 5000) (fun _ => false)) 2 2) 2 2 false file_3.
Proof.
  rewrite file_3_eq.
  eapply campaign_next; [|apply taken|apply taken_open|apply weak_ok| |apply (fun k l => Permutation_refl _)|exact file_3_run]; [|left; reflexivity].
  rewrite file_2_eq.
  eapply (campaign_filter _ _ _ _ 1000 (fun l => l) (fun l => l) the_tools);
    [|apply taken|apply taken_open|apply (@same_list _)|apply (@same_list _)|exact the_tools_sound| |exact filters_2].
  - eapply campaign_first; [apply weak_ok| |apply (fun k l => Permutation_refl _)|exact file_1_run]. left. reflexivity.
  - right. exists 1000, (fun l => l), (fun l => l), the_tools. split; [apply (@same_list _)|]. split; [apply (@same_list _)|]. split; [exact the_tools_sound|reflexivity].
Qed.
Example C66_files_settle M k Q A e t sc : Spec_Rename.in_range 2 2 M -> halts_at M initial k Q A e t -> score t sc -> k <= 6 /\ sc <= 4.
Proof.
  eapply (C66_settles _ 2 2 file_3 _ _ 1000 (fun l => l) (fun l => l) the_tools _ 6 4 file_3_campaign);
    [apply taken|apply taken_open|apply (@same_list _)|apply (@same_list _)|exact the_tools_sound|exact filters_4| |].
  - intros r Hr. assert (F : forallb (fun r => negb (undecided r)) filtered_3 = true) by (vm_cast_no_check (@eq_refl bool true)).
    rewrite forallb_forall in F. specialize (F r Hr). clear Hr. now apply negb_true_iff.
  - intros r Hr. assert (F : forallb (fun r => match snd r with Unknown => false | Halting k sc _ _ => (k <=? 6)%Z && (sc <=? 4)%Z | _ => true end)
      (filter (fun r => negb (undecided r)) file_3) = true) by (vm_cast_no_check (@eq_refl bool true)).
    rewrite forallb_forall in F. specialize (F r Hr). clear Hr. destruct (snd r); [discriminate F| |exact Logic.I]. apply andb_prop in F. lia.
Qed.
(** the halting records are those of a run without stop and filters *)
Definition one_run := Eval vm_compute in file_of (weak_first 0).
Lemma one_run_run : weak_first 0 = Some (61, [], map Some one_run).
Proof.
  assert (E : map Some one_run = ltac:(let x := eval vm_compute in (map Some one_run) in exact x)) by reflexivity. rewrite E. clear E.
  match goal with |- _ = ?x => vm_cast_no_check (@eq_refl _ x) end.
Qed.
Lemma one_run_file : one_run = file_of (weak_first 0).
Proof. rewrite one_run_run. vm_cast_no_check (@eq_refl _ one_run). Qed.
Example C66_files_same : Permutation (map fst file_3) (map fst (file_of (weak_first 0))) /\ Permutation (filter halting file_3) (filter halting (file_of (weak_first 0))).
Proof.
  rewrite file_3_eq. rewrite <- one_run_file.
  eapply (C66_same_halting 2 2 false file_2 (filter undecided file_2) (decided_of file_2));
    [|apply taken|apply taken_open|apply taken_decided|apply weak_ok| | |exact file_3_run|].
  - rewrite file_2_eq. eapply (campaign_filter _ _ _ _ 1000 (fun l => l) (fun l => l) the_tools);
      [|apply taken|apply taken_open|apply (@same_list _)|apply (@same_list _)|exact the_tools_sound| |exact filters_2].
    + eapply campaign_first; [apply weak_ok| |apply (fun k l => Permutation_refl _)|exact file_1_run]. left. reflexivity.
    + right. exists 1000, (fun l => l), (fun l => l), the_tools. split; [apply (@same_list _)|]. split; [apply (@same_list _)|]. split; [exact the_tools_sound|reflexivity].
  - intros; apply Permutation_refl.
  - instantiate (1 := fun _ l => l). intros; apply Permutation_refl.
  - instantiate (1 := []). instantiate (1 := 61). instantiate (1 := Z.to_nat 1000). instantiate (1 := FIFO).
    exact one_run_run.
Qed.

(** Only undecided records may be given to the filters.  CPS_Filter deletes what is known about a record, so
    what it makes of any record is what it makes of one without results: given the whole file of a finished
    run it leaves the halting machines undecided, and an enumeration that goes on from the undecided records
    stores machines twice. *)
Definition cps_only : list M_Tools.tool := [M_Tools.Tool_cps (M_Tools.CpsOptions 1 2 0 1000%Z 500%Z 10000%Z 10000%Z)].
Definition stage_3_written := Eval vm_compute in stage_3.
Lemma stage_3_eq : stage_3 = stage_3_written. Proof. vm_cast_no_check (@eq_refl _ stage_3_written). Qed.
Definition forgotten := Eval vm_compute in match filter_run 1000 (fun l => l) (fun l => l) cps_only stage_3_written with Some l => l | None => [] end.
Definition forgotten_open := Eval vm_compute in filter undecided forgotten.
Notation go_on infile := (enumerate_infile twice (fun _ l => l) (fun _ => 0) defaults (Z.to_nat 5000) (fun _ => false)
  (fun _ l => l) LIFO 0 (Z.to_nat 1000) infile).
Definition again_file := Eval vm_compute in file_of (go_on forgotten_open).
Lemma again_run : go_on forgotten_open = Some (195, [], map Some again_file).
Proof.
  assert (E : map Some again_file = ltac:(let x := eval vm_compute in (map Some again_file) in exact x)) by reflexivity. rewrite E. clear E.
  match goal with |- _ = ?x => vm_cast_no_check (@eq_refl _ x) end.
Qed.
Theorem C66_whole_file_refuted : exists new cnt again,
  campaign (fun run => forall x, run x = the_run x) 2 2 false stage_3 /\ filter undecided stage_3 = [] /\
  filter_run 1000 (fun l => l) (fun l => l) cps_only stage_3 = Some new /\ length (filter undecided new) = 19 /\
  go_on (filter undecided new) = Some (cnt, [], map Some again) /\ cnt = 195 /\ ~ NoDup (map fst again).
Proof.
  exists forgotten, 195, again_file. split; [exact (proj1 C64_stages)|]. rewrite stage_3_eq.
  split; [vm_cast_no_check (@eq_refl (list (proto_tm * status)) [])|].
  split; [vm_cast_no_check (@eq_refl _ (Some forgotten))|]. split; [vm_cast_no_check (@eq_refl nat 19)|].
  split. { assert (E : filter undecided forgotten = forgotten_open) by (vm_cast_no_check (@eq_refl _ forgotten_open)). rewrite E. exact again_run. }
  split; [reflexivity|]. intros ND.
  destruct (NoDup_nth_error (map fst again_file)) as (H & _).
  assert (X : nth_error (map fst again_file) 1 = nth_error (map fst again_file) 121) by (vm_compute; reflexivity).
  assert (Q : 1 = 121); [|discriminate]. apply (H ND); [vm_compute; lia|exact X].
Qed.

Print Assumptions C66_filter_step.
Print Assumptions C66_filter_ends.
Print Assumptions C66_settles.
Print Assumptions C66_same_halting.
Print Assumptions C66_whole_file_refuted.
