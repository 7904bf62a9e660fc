(** * C56: the file written by the enumeration, with the simulation that decides the machines

    Enumerate.py run to its end: what every record says is true of the machine stored in it, no machine is
    stored twice, and every machine of the class that halts is in the file. *)
Require Import ZArith List Lia Bool Arith Permutation.
From Verif Require Import Spec_TM Spec_Rename M_Turing_Machine M_Direct M_Tape M_Simulator M_Settings M_Filters M_IO M_Enum M_Pipeline M_Enumerate
  P_Macro P_Quint P_IO P_Tree P_Complete P_Complete2 P_Unique P_TNF2 P_Queue P_EnumTree P_Enumerate Prop_LinRecur Prop_IO Prop_Enum Prop_Count Prop_Pipeline.
Import ListNotations.
Open Scope nat_scope.

Lemma NoDup_app_inv' {A} (x y : list A) : NoDup (x ++ y) -> NoDup x /\ NoDup y /\ forall a, In a x -> ~ In a y.
Proof.
  induction x as [|b x IH]; intros H; [split; [constructor|split; [exact H|easy]]|]. inversion H as [|? ? H1 H2]; subst.
  destruct (IH H2) as (I1 & I2 & I3). split; [constructor; auto; intros Q; apply H1, in_app_iff; auto|]. split; [exact I2|].
  intros a [<-|Ha] Q; [apply H1, in_app_iff; auto|exact (I3 a Ha Q)].
Qed.
Lemma forest_roots {J} (e : J -> list J) js nodes : forest e js nodes -> NoDup nodes -> NoDup js /\ incl js nodes.
Proof.
  induction 1 as [|j js a b F1 IH1 F2 IH2]; intros H; [split; [constructor|easy]|].
  inversion H as [|? ? H1 H2]; subst. destruct (NoDup_app_inv' _ _ H2) as (_ & H3 & _). destruct (IH2 H3) as (I1 & I2). split.
  - constructor; [|exact I1]. intros Hj. apply H1, in_app_iff. auto.
  - intros x [<-|Hx]; [left; reflexivity|right; apply in_app_iff; auto].
Qed.

Lemma NoDup_map_in {A B} (f : A -> B) l : (forall x y, In x l -> In y l -> f x = f y -> x = y) -> NoDup l -> NoDup (map f l).
Proof.
  induction l as [|a l IH]; intros Hf H; [constructor|]. inversion H; subst. cbn [map]. constructor.
  - intros Hin. apply in_map_iff in Hin. destruct Hin as (x & Ex & Hx). assert (x = a) as -> by (apply Hf; simpl; auto). contradiction.
  - apply IH; auto. intros x y Hx Hy. apply Hf; simpl; auto.
Qed.

(** The settings under which the theorems hold: a class that the packed format can store, an iteration
    order of sets that is one, a prover whose rules can be trusted (C55, C52) and, with backsymbol, blocks
    small enough for the repetition test (C05).  Missing for the theorems marked partial: the settings left
    out here, which C55 refutes, and larger classes, see C56_eight_states_refuted. *)
Definition settings_ok (order : forall A, list A -> list A) (next : ttable -> nat) (n m : nat) (o : options) : Prop :=
  0 < n <= 7 /\ 1 < m <= 7 /\ (forall A l, incl (order A l) l) /\
  (forall tab, std_table n m tab -> prover_trusted (next tab) tab o) /\ blocks_covered n m (enum_options o).

(** the machine and the status in a record *)
Definition holds_record (n m : nat) (out : list (option (proto_tm * status))) (tab : ttable) (s : status) : Prop :=
  exists p, In (Some (p, s)) out /\ read_tm p = Some (tab, n, m).

Section File.
  Variable faster : Z * Z -> Z * Z -> bool.
  Variable order : forall A, list A -> list A.
  Variable next : ttable -> nat.
  Variables (n m : nat) (allow : bool) (o : options) (fuel : nat).
  Variable late : ttable -> bool.
  Variable shuffle : nat -> list ttable -> list ttable.
  Variable d : discipline.
  Variable first : bool.
  Hypothesis OK : settings_ok order next n m o.
  Hypothesis SH : forall k l, Permutation (shuffle k l) l.
  Notation run := (run_status faster order next n m o fuel late).
  Notation expand := (expand_job n m allow run).
  Notation rec := (record_of n m run).
  Notation enum := (enumerate_tms faster order next n m allow o fuel late shuffle d first).

  Lemma run_true tab : std_table n m tab -> status_true True (table_of tab) (run tab).
  Proof. destruct OK as ((N1 & N2) & (M1 & M2) & Ho & PT & BC). apply run_status_true; auto; lia. Qed.
  Lemma blank_some : (first = true -> 1 < n) -> exists root, blank_tm_enum n m first = Some root.
  Proof.
    intros H. destruct OK as ((N1 & N2) & (M1 & M2) & _). destruct (blank_tm_enum n m first) as [root|] eqn:E; [eauto|exfalso].
    revert E. unfold blank_tm_enum. destruct first; apply quintuples_accepts; repeat constructor; cbn; lia.
  Qed.
  Lemma unrun_true tab : node n m allow first tab -> exists p, unrun_record n m tab = Some (p, Unknown) /\ read_tm p = Some (tab, n, m).
  Proof.
    intros H. destruct OK as (Hn & Hm & _). destruct (write_std n m Hn Hm tab (node_std n m allow Hn Hm first tab H)) as (b & E1 & E2).
    exists (Packed b). unfold unrun_record. rewrite E1. split; [reflexivity|exact E2].
  Qed.

  (** the shape of the file of a run *)
  Lemma file_shape num rounds cnt q out : enum num rounds = Some (cnt, q, out) ->
    exists root nodes ran left rest, blank_tm_enum n m first = Some root /\ forest expand [root] nodes /\ NoDup nodes /\
      (forall tab, In tab nodes -> node n m allow first tab) /\ Permutation nodes (ran ++ rest) /\ NoDup left /\ incl left rest /\
      (num = 0 -> left = [] /\ rest = []) /\ cnt = length ran + length left /\ q = [] /\
      Permutation out (map rec ran ++ map (unrun_record n m) left).
  Proof.
    destruct OK as (Hn & Hm & Ho & PT & BC). unfold enumerate_tms. destruct (blank_tm_enum n m first) as [root|] eqn:Er; [|discriminate]. intros E.
    destruct (the_tree n m allow run Hn Hm run_true first root Er) as (nodes & F & N & Hnode).
    exists root, nodes. destruct (Nat.eq_dec num 0) as [->|N0].
    - exists nodes, [], []. rewrite !app_nil_r.
      destruct (C44_all_once expand rec (unrun_record n m) shuffle d [root] nodes SH F (length nodes + rounds) ltac:(lia)) as (out' & E' & P).
      pose proof (main_mono expand rec (unrun_record n m) shuffle d 0 rounds _ _ _ _ _ (length nodes + rounds) ltac:(lia) E) as E2.
      rewrite E' in E2. injection E2 as <- <- <-. cbn [map length]. rewrite ?app_nil_r, ?Nat.add_0_r.
      repeat split; auto; try constructor; easy.
    - destruct (C44_limit expand rec (unrun_record n m) shuffle d num [root] (num + rounds) SH ltac:(lia) ltac:(lia))
        as (ran & left & out' & E' & P1 & P2 & _ & _ & Q).
      pose proof (main_mono expand rec (unrun_record n m) shuffle d num rounds _ _ _ _ _ (num + rounds) ltac:(lia) E) as E2.
      rewrite E' in E2. injection E2 as <- <- <-. destruct (Q nodes F) as (rest & F' & P3). exists ran, left, rest.
      assert (NR : NoDup (ran ++ rest)) by (eapply Permutation_NoDup; eauto).
      destruct (NoDup_app_inv' _ _ NR) as (_ & NR2 & _). destruct (forest_roots _ _ _ F' NR2) as (L1 & L2).
      repeat split; auto; contradiction.
  Qed.

  (** Every record of the file, also of a run that stops at [--num-enum], can be read back and says the
      truth about the machine in it: what is called halting halts, explicitly, after exactly that many steps
      from exactly that state and symbol with exactly that score, what is called infinite runs forever, and
      the quasihalt part is true as in C55. *)
  Theorem C56_records_true_partial num rounds cnt q out : enum num rounds = Some (cnt, q, out) -> forall r, In r out -> record_true n m r.
  Proof.
    intros E r Hr. destruct (file_shape _ _ _ _ _ E) as (root & nodes & ran & left & rest & Er & F & N & Hnode & P1 & _ & I & _ & _ & _ & P2).
    destruct OK as (Hn & Hm & Ho & PT & BC).
    apply (Permutation_in _ P2), in_app_iff in Hr. destruct Hr as [Hr|Hr]; apply in_map_iff in Hr; destruct Hr as (tab & <- & Ht).
    - apply (rec_true n m allow run Hn Hm run_true first), Hnode.
      apply (Permutation_in _ (Permutation_sym P1)), in_app_iff. auto.
    - assert (Hd : node n m allow first tab) by (apply Hnode, (Permutation_in _ (Permutation_sym P1)), in_app_iff; auto).
      destruct (unrun_true tab Hd) as (p & Ep & Rp). exists p, Unknown, tab. do 2 (split; [assumption|]).
      split; [apply (node_std n m allow Hn Hm first tab Hd)|exact Logic.I].
  Qed.

  (** No machine is stored twice, and the number written at the end is that of the records. *)
  Theorem C56_no_machine_twice num rounds cnt q out : enum num rounds = Some (cnt, q, out) ->
    NoDup (map (option_map fst) out) /\ cnt = length out.
  Proof.
    intros E. destruct (file_shape _ _ _ _ _ E) as (root & nodes & ran & left & rest & Er & F & N & Hnode & P1 & NL & I & _ & -> & _ & P2).
    split; [|rewrite (Permutation_length P2), app_length, !map_length; reflexivity].
    destruct OK as (Hn & Hm & Ho & PT & BC).
    assert (IN : forall tab, In tab (ran ++ left) -> node n m allow first tab).
    { intros tab H. apply Hnode, (Permutation_in _ (Permutation_sym P1)), in_app_iff. apply in_app_iff in H. destruct H; auto. }
    assert (ND : NoDup (ran ++ left)).
    { assert (NR : NoDup (ran ++ rest)) by (eapply Permutation_NoDup; eauto). destruct (NoDup_app_inv' _ _ NR) as (R1 & R2 & R3).
      apply NoDup_app_intro; auto. intros a Ha Q. exact (R3 a Ha (I a Q)). }
    apply NoDup_app_inv' in ND. destruct ND as (D1 & D2 & D3).
    assert (SR : forall tab, In tab ran -> exists p, rec tab = Some (p, run tab) /\
                   read_tm p = Some (stored run tab, n, m)).
    { intros tab H. destruct (rec_shape n m allow run Hn Hm run_true first tab) as (b & E1 & E2 & _); [|eauto].
      apply IN, in_app_iff; auto. }
    assert (SL : forall tab, In tab left -> exists p, unrun_record n m tab = Some (p, Unknown) /\ read_tm p = Some (tab, n, m)).
    { intros tab H. apply unrun_true, IN, in_app_iff; auto. }
    eapply Permutation_NoDup; [apply Permutation_map, Permutation_sym, P2|]. rewrite map_app, !map_map. apply NoDup_app_intro.
    - apply NoDup_map_in; [|exact D1]. intros x y Hx Hy Exy. destruct (SR x Hx) as (p & Ep & Rp), (SR y Hy) as (p' & Ep' & Rp').
      rewrite Ep, Ep' in Exy. cbn in Exy. injection Exy as <-. rewrite Rp in Rp'. injection Rp' as Rp'.
      apply (stored_inj n m allow run Hn Hm run_true first); auto; apply IN, in_app_iff; auto.
    - apply NoDup_map_in; [|exact D2]. intros x y Hx Hy Exy. destruct (SL x Hx) as (p & Ep & Rp), (SL y Hy) as (p' & Ep' & Rp').
      rewrite Ep, Ep' in Exy. cbn in Exy. injection Exy as <-. rewrite Rp in Rp'. now injection Rp'.
    - intros a Ha Hb. apply in_map_iff in Ha, Hb. destruct Ha as (x & Ex & Hx), Hb as (y & Ey & Hy). subst a.
      destruct (SR x Hx) as (p & Ep & Rp), (SL y Hy) as (p' & Ep' & Rp').
      rewrite Ep, Ep' in Ey. cbn in Ey. injection Ey as ->. rewrite Rp in Rp'. injection Rp' as Rp'.
      apply (D3 x Hx). replace x with y; [exact Hy|]. symmetry.
      apply (stored_raw n m allow run Hn Hm run_true first); auto; apply IN, in_app_iff; auto.
  Qed.

  (** The enumeration ends. *)
  Theorem C56_ends : (first = true -> 1 < n) -> exists k, forall rounds, k <= rounds -> exists cnt out, enum 0 rounds = Some (cnt, [], out).
  Proof.
    intros H1. destruct (blank_some H1) as (root & Er). destruct OK as (Hn & Hm & Ho & PT & BC).
    destruct (the_tree n m allow run Hn Hm run_true first root Er) as (nodes & F & N & Hnode).
    exists (length nodes). intros rounds Hr. unfold enumerate_tms. rewrite Er.
    destruct (C44_all_once expand rec (unrun_record n m) shuffle d [root] nodes SH F rounds Hr) as (out & E & _). eauto.
  Qed.

  (** Every machine of the class that halts is in the file: there is a record of a table that is, up to the
      names of states and symbols and left and right, part of the machine, and the status in it is unknown or
      halting after the number of steps the machine takes, at the place where it does, with at least its
      score, and just its score if it does not write the blank in its last step.  With [--first-1rb] this is
      for the machines that, in the first step, write a symbol and leave the state. *)
  Theorem C56_no_machine_missed_partial rounds cnt q out M K Q A e t : enum 0 rounds = Some (cnt, q, out) ->
    in_range n m M -> halts_at M initial K Q A e t ->
    (first = true -> exists w0 d0 q0, M 0 0 = Go w0 d0 q0 /\ w0 <> 0 /\ q0 <> 0) ->
    exists tab s f g b, holds_record n m out tab s /\ permutes n f /\ permutes m g /\ f 0 = 0 /\ g 0 = 0 /\
      sub_renamed f g b (table_of tab) M /\
      (s = Unknown \/
       exists sc q a, s = Halting (Z.of_nat K) (Z.of_nat sc) q a /\ f q = Q /\ g a = A /\
         forall sc' w d e, score t sc' -> M Q A = Stop w d e -> sc' <= sc /\ (w <> 0 -> sc' = sc)).
  Proof.
    intros E HM (k & c & w & d' & -> & Ek & -> & -> & Es & Ht) H1.
    destruct (file_shape _ _ _ _ _ E) as (root & nodes & ran & left & rest & Er & F & N & Hnode & P1 & _ & _ & Z0' & _ & _ & P2).
    destruct (Z0' eq_refl) as (-> & ->). rewrite app_nil_r in P1, P2.
    destruct OK as (Hn & Hm & Ho & PT & BC).
    destruct (covered_node n m allow run Hn Hm run_true first root nodes M k c w d' e Er F HM Ek Es)
      as (tab & f & g & b & Hin & Pf & Pg & F0 & G0 & Sub & Cs).
    { destruct first.
      - destruct (H1 eq_refl) as (w0 & d0 & q0 & E0 & Hw0 & Hq0).
        assert (q0 < n /\ w0 < m) by (destruct (HM 0 0 _ _ _ ltac:(lia) ltac:(lia) E0); auto).
        apply (C43_no_machine_missed_1rb n m allow M k c w d' e w0 d0 q0); auto; lia.
      - apply (C43_no_machine_missed n m allow M k c w d' e); auto; lia. }
    destruct (rec_shape n m allow run Hn Hm run_true first tab (Hnode tab Hin)) as (p & E1 & E2 & _).
    exists (stored run tab), (run tab), f, g, b. split.
    { exists (Packed p). split; [|exact E2]. rewrite <- E1. apply (Permutation_in _ (Permutation_sym P2)), in_map, (Permutation_in _ P1), Hin. }
    do 5 (split; [assumption|]). destruct Cs as [U|(sc & q1 & a & Hs & Hq & Ha & Sc)]; [left; exact U|right].
    exists sc, q1, a. do 3 (split; [assumption|]). intros sc' w1 d1 e1 Hsc' Ew. rewrite Es in Ew. injection Ew as <- <- <-. now apply (Sc t).
  Qed.

  (** A file without unknown machines settles the class: no machine runs longer or leaves more than the
      records say. *)
  Theorem C56_settled rounds cnt q out K S : enum 0 rounds = Some (cnt, q, out) -> first = false ->
    (forall tab s, holds_record n m out tab s -> match s with Unknown => False | Halting k sc _ _ => (k <= Z.of_nat K /\ sc <= Z.of_nat S)%Z | _ => True end) ->
    forall M k Q A e t sc, in_range n m M -> halts_at M initial k Q A e t -> score t sc -> k <= K /\ sc <= S.
  Proof.
    intros E Hf H M k Q A e t sc HM Hh Hs. assert (Es : exists w d', M Q A = Stop w d' e) by (destruct Hh as (? & ? & w & d' & _ & _ & -> & -> & ? & _); eauto).
    destruct Es as (w & d' & Es).
    destruct (C56_no_machine_missed_partial _ _ _ _ M k Q A e t E HM Hh) as (tab & s & f & g & b & Hr & _ & _ & _ & _ & _ & Cs); [congruence|].
    specialize (H _ _ Hr). destruct Cs as [->|(sc1 & q1 & a & -> & _ & _ & Sc)]; [easy|]. destruct (Sc _ _ _ _ Hs Es). lia.
  Qed.
End File.

Lemma std_in_range n m tab : std_table n m tab -> in_range n m (table_of tab).
Proof.
  intros (_ & H) i j w d q Hi Hj E. rewrite table_of_cell in E. destruct (cell tab i j) as [t|] eqn:C; [|discriminate].
  specialize (H _ _ _ C). destruct H; cbn in E; try discriminate. injection E as <- <- <-. auto.
Qed.

(** and what a record says about steps and score is reached by a machine of the class *)
Theorem C56_reached n m out p k sc q a : (forall r, In r out -> record_true n m r) -> In (Some (p, Halting k sc q a)) out ->
  exists M tape, in_range n m M /\ halts_at M initial (Z.to_nat k) q a true tape /\ score tape (Z.to_nat sc).
Proof.
  intros H Hin. destruct (H _ Hin) as (p' & s & tab & E & _ & S & B). injection E as <- <-. destruct B as (_ & _ & tape & B1 & B2).
  exists (table_of tab), tape. split; [now apply std_in_range|auto].
Qed.

(** ** concrete classes: what the busy beaver competition asks *)

(** no machine with [n] states and [m] symbols that halts takes more than [K] steps or leaves more than [S]
    symbols, and both are reached *)
Definition champions (n m K S : nat) : Prop :=
  (forall M k Q A e t sc, in_range n m M -> halts_at M initial k Q A e t -> score t sc -> k <= K /\ sc <= S) /\
  (exists M Q A e t, in_range n m M /\ halts_at M initial K Q A e t) /\
  (exists M k Q A e t, in_range n m M /\ halts_at M initial k Q A e t /\ score t S).

(** a program that reads the file *)
Definition within (K S : nat) (r : option (proto_tm * status)) : bool :=
  match r with
  | Some (_, Halting k sc _ _) => ((k <=? Z.of_nat K) && (sc <=? Z.of_nat S))%Z
  | Some (_, Infinite _ _) => true
  | _ => false
  end.
Definition steps_are (K : nat) (r : option (proto_tm * status)) : bool :=
  match r with Some (_, Halting k _ _ _) => (k =? Z.of_nat K)%Z | _ => false end.
Definition score_is (S : nat) (r : option (proto_tm * status)) : bool :=
  match r with Some (_, Halting _ sc _ _) => (sc =? Z.of_nat S)%Z | _ => false end.
Definition read_file (num K S : nat) (res : option (nat * list ttable * list (option (proto_tm * status)))) : bool :=
  match res with
  | Some (cnt, _, out) => (cnt =? num) && forallb (within K S) out && existsb (steps_are K) out && existsb (score_is S) out
  | None => false
  end.

Theorem C56_champions faster order next n m allow o fuel late shuffle d rounds num K S :
  settings_ok order next n m o -> (forall k l, Permutation (shuffle k l) l) ->
  read_file num K S (enumerate_tms faster order next n m allow o fuel late shuffle d false 0 rounds) = true ->
  champions n m K S.
Proof.
  intros OK SH H. destruct (enumerate_tms _ _ _ _ _ _ _ _ _ _ _ _ _ _) as [((cnt, q), out)|] eqn:E; [|discriminate].
  cbn [read_file] in H. apply andb_prop in H as (H & H3). apply andb_prop in H as (H & H2). apply andb_prop in H as (_ & H1).
  rewrite forallb_forall in H1. apply existsb_exists in H2 as (r2 & I2 & H2), H3 as (r3 & I3 & H3).
  pose proof (C56_records_true_partial _ _ _ _ _ _ _ _ _ _ _ _ OK SH _ _ _ _ _ E) as RT. split; [|split].
  - apply (C56_settled faster order next n m allow o fuel late shuffle d false OK SH rounds cnt q out K S E eq_refl).
    intros tab s (p & Hp & _). specialize (H1 _ Hp). cbn in H1. destruct s; auto; [discriminate|lia].
  - destruct r2 as [(p, [|k sc q2 a2|])|]; try discriminate. cbn in H2.
    destruct (C56_reached n m out p k sc q2 a2 RT I2) as (M & t & B1 & B2 & _). exists M, q2, a2, true, t. split; [exact B1|].
    replace K with (Z.to_nat k) by lia. exact B2.
  - destruct r3 as [(p, [|k sc q2 a2|])|]; try discriminate. cbn in H3.
    destruct (C56_reached n m out p k sc q2 a2 RT I3) as (M & t & B1 & B2 & B3). exists M, (Z.to_nat k), q2, a2, true, t. split; [exact B1|].
    split; [exact B2|]. replace S with (Z.to_nat sc) by lia. exact B3.
Qed.

Notation the_enum n m o := (enumerate_tms twice (fun _ l => l) (fun _ => 0) n m false o (Z.to_nat 5000) (fun _ => false) (fun _ l => l) LIFO).

Lemma plain_trusted next n m o : o_prover o = M_Pipeline.Plain -> 0 < o_max_reps o -> forall tab, std_table n m tab -> prover_trusted (next tab) tab o.
Proof. intros H1 H2 tab _. split; [auto|]. rewrite H1. discriminate. Qed.

Lemma ten_thousand k : (Z.of_nat k <= 10000)%Z -> k <= Z.to_nat 10000.
Proof. lia. Qed.

(** the settings are those of a real run: the defaults and, for the larger classes, [--block-size=2] *)
Example settings_2_2 : settings_ok (fun _ l => l) (fun _ => 0) 2 2 defaults.
Proof.
  split; [lia|]. split; [lia|]. split; [intros A l; apply incl_refl|]. split; [now apply plain_trusted; [|cbn; lia]|].
  right. exists 5. split; [reflexivity|]. split; apply ten_thousand; vm_compute; discriminate.
Qed.
Definition size_2 : options := but true 127 2 true true 300 M_Pipeline.Plain.
Example settings_2_3 : settings_ok (fun _ l => l) (fun _ => 0) 2 3 size_2.
Proof.
  split; [lia|]. split; [lia|]. split; [intros A l; apply incl_refl|]. split; [now apply plain_trusted; [|cbn; lia]|].
  right. exists 2. split; [reflexivity|]. split; apply ten_thousand; vm_compute; discriminate.
Qed.
Example settings_3_2 : settings_ok (fun _ l => l) (fun _ => 0) 3 2 size_2.
Proof.
  split; [lia|]. split; [lia|]. split; [intros A l; apply incl_refl|]. split; [now apply plain_trusted; [|cbn; lia]|].
  right. exists 2. split; [reflexivity|]. split; apply ten_thousand; vm_compute; discriminate.
Qed.

Example file_2_2 : read_file 61 6 4 (the_enum 2 2 defaults false 0 (Z.to_nat 100)) = true.
Proof. vm_cast_no_check (@eq_refl bool true). Qed.
Example file_2_3 : read_file 3013 38 9 (the_enum 2 3 size_2 false 0 (Z.to_nat 4000)) = true.
Proof. vm_cast_no_check (@eq_refl bool true). Qed.
Example file_3_2 : read_file (Z.to_nat 5417) 21 6 (the_enum 3 2 size_2 false 0 (Z.to_nat 6000)) = true.
Proof. vm_cast_no_check (@eq_refl bool true). Qed.

(** The enumeration solves the busy beaver competition for these classes: 6 steps and 4 symbols, 38 steps and
    9 symbols, 21 steps and 6 symbols. *)
Theorem C56_busy_beaver_2_2 : champions 2 2 6 4.
Proof. exact (C56_champions _ _ _ _ _ _ _ _ _ _ _ _ _ _ _ settings_2_2 (fun _ l => Permutation_refl l) file_2_2). Qed.
Theorem C56_busy_beaver_2_3 : champions 2 3 38 9.
Proof. exact (C56_champions _ _ _ _ _ _ _ _ _ _ _ _ _ _ _ settings_2_3 (fun _ l => Permutation_refl l) file_2_3). Qed.
Theorem C56_busy_beaver_3_2 : champions 3 2 21 6.
Proof. exact (C56_champions _ _ _ _ _ _ _ _ _ _ _ _ _ _ _ settings_3_2 (fun _ l => Permutation_refl l) file_3_2). Qed.

(** ** refutations *)

(** The bound on the class cannot be left out: with 8 states the enumeration, with its default settings,
    fails at the seventh machine, where standardize_halt_trans packs a table that write_tm would not. *)
Theorem C56_eight_states_refuted :
  exists cnt out, the_enum 8 2 defaults true 7 7 = Some (cnt, [], out) /\ nth_error out 6 = Some None /\ ~ (forall r, In r out -> record_true 8 2 r).
Proof.
  assert (H : exists cnt out, the_enum 8 2 defaults true 7 7 = Some (cnt, [], out) /\ nth_error out 6 = Some None).
  { eexists. eexists. split; [vm_compute; reflexivity|reflexivity]. }
  destruct H as (cnt & out & H1 & H2). exists cnt, out. split; [exact H1|]. split; [exact H2|]. intros H.
  destruct (H None (nth_error_In _ _ H2)) as (p & s & tab & X & _). discriminate.
Qed.

Print Assumptions C56_records_true_partial.
Print Assumptions C56_no_machine_twice.
Print Assumptions C56_ends.
Print Assumptions C56_no_machine_missed_partial.
Print Assumptions C56_settled.
Print Assumptions C56_reached.
Print Assumptions C56_champions.
Print Assumptions C56_busy_beaver_2_2.
Print Assumptions C56_busy_beaver_2_3.
Print Assumptions C56_busy_beaver_3_2.
Print Assumptions C56_eight_states_refuted.
