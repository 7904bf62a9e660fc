(** * C69: what the Lazy Beaver program (cpp/src/lb_enum) prints and writes is true, and it runs every machine it has to *)
Require Import ZArith List Lia Bool Arith Permutation.
From Verif Require Import Spec_TM Spec_Rename M_Turing_Machine M_IO M_Enum P_Macro P_Quint P_Tree P_Complete P_Complete2 P_Unique P_Queue
  P_EnumTree Prop_Enum Prop_Count M_Cpp P_Cpp.
Import ListNotations.
Open Scope nat_scope.

(** The machine of a C++ table, for the reference semantics. *)
Definition cpp_machine (tm : cpp_tm) : table := fun i j =>
  match nth_error (c_trans tm) i with
  | Some row => match nth_error row j with
                | Some x => match lk_state x with
                            | SRun q => Go (lk_symbol x) (lk_move x) q
                            | SHalt => Stop (lk_symbol x) (lk_move x) (negb (lk_undecided x))
                            end
                | None => Stop 1 R false
                end
  | None => Stop 1 R false
  end.

(** Some machine with [n] states and [m] symbols halts at step [k] on the blank tape. *)
Definition realizable (n m k : nat) : Prop := exists M, in_range n m M /\ exists q s b t, halts_at M initial k q s b t.

(** [v] is the Lazy Beaver number: the first number of steps with which no machine halts. *)
Definition lazy_beaver_number (n m v : nat) : Prop :=
  1 <= v /\ ~ realizable n m v /\ forall i, 1 <= i < v -> realizable n m i.

(** ** the two readings of a table agree *)

Lemma machine_tab n m tm : wf_trans n m (c_trans tm) -> forall i j, table_of (to_tab (c_trans tm)) i j = cpp_machine tm i j.
Proof.
  intros W i j. unfold cpp_machine. destruct (cell (c_trans tm) i j) as [x|] eqn:E.
  - rewrite (table_to_tab _ _ _ _ _ _ W E). unfold cell in E. destruct (nth_error (c_trans tm) i) as [row|]; [|discriminate]. now rewrite E.
  - rewrite table_of_cell, cell_to_tab, E. unfold cell in E. destruct (nth_error (c_trans tm) i) as [row|]; [now rewrite E|reflexivity].
Qed.
Lemma steps_ext (T T' : table) : (forall i j, T i j = T' i j) -> forall k c, steps T k c = steps T' k c.
Proof.
  intros H. induction k as [|k IH]; intros c; simpl; [reflexivity|]. unfold step. rewrite H. destruct (T' _ _); auto.
Qed.
Lemma halts_ext (T T' : table) c k q s b t : (forall i j, T i j = T' i j) -> halts_at T c k q s b t -> halts_at T' c k q s b t.
Proof.
  intros H (h & x & w & d & E1 & E2 & E3 & E4 & E5 & E6). exists h, x, w, d. rewrite <- (steps_ext T T' H), <- H. auto 10.
Qed.

(** ** the results of the loop *)

Lemma halt_steps_some n m K tm k : 2 <= n -> 2 <= m -> like n m tm ->
  (halt_steps K tm = Some k <-> k <= K /\ exists q s b t, halts_at (cpp_machine tm) initial k q s b t).
Proof.
  intros Hn Hm Hl. pose proof (machine_tab n m tm (lk_wf _ _ _ Hl)) as Em. unfold halt_steps. split.
  - destruct (stop_at _ K initial) as [((i, q), a)|] eqn:E; [|discriminate]. simpl. intros [= <-].
    destruct (stop_at_some _ _ _ _ _ _ E) as (Hi & _). split; [lia|]. destruct (stop_at_halts _ _ _ _ _ E) as (e & t & H).
    exists q, a, e, t. eapply halts_ext; eauto.
  - intros (Hk & q & s & b & t & H). apply (halts_ext _ (table_of (to_tab (c_trans tm)))) in H; [|intros; now rewrite Em].
    rewrite (halts_stop_at _ K _ _ _ _ _ H Hk). simpl. f_equal. destruct H as (h & _ & _ & _ & -> & _). reflexivity.
Qed.
Lemma halt_steps_none n m K tm : like n m tm -> (halt_steps K tm = None <-> exists c, steps (cpp_machine tm) K initial = Some c).
Proof.
  intros Hl. pose proof (machine_tab n m tm (lk_wf _ _ _ Hl)) as Em. unfold halt_steps.
  rewrite <- (steps_ext _ _ Em), <- stop_at_none. destruct (stop_at _ K initial); simpl; split; auto; discriminate.
Qed.

Lemma fold_lb K nodes : forall e, NoDup (lb_realized e) -> map fst (lb_witness e) = rev (lb_realized e) ->
  lb_total e = lb_halt e + length (lb_nonhalt e) ->
  let e' := fold_left (fun s tm => lb_next K tm s) nodes e in
  (forall k, In k (lb_realized e') <-> In k (lb_realized e) \/ exists tm, In tm nodes /\ halt_steps K tm = Some k) /\
  NoDup (lb_realized e') /\ map fst (lb_witness e') = rev (lb_realized e') /\
  (forall k tm, In (k, tm) (lb_witness e') -> In (k, tm) (lb_witness e) \/ In tm nodes /\ halt_steps K tm = Some k) /\
  (forall tm, In tm (lb_nonhalt e') <-> In tm (lb_nonhalt e) \/ In tm nodes /\ halt_steps K tm = None) /\
  lb_total e' = lb_total e + length nodes /\ lb_total e' = lb_halt e' + length (lb_nonhalt e').
Proof.
  induction nodes as [|tm nodes IH]; intros e Hd Hw Ht e'.
  - cbn in e'. subst e'. repeat split; auto; try (intros [H|H]; [exact H|]); try tauto; try lia.
    + destruct H as (? & [] & _).
    + destruct H as ([] & _).
  - cbn [fold_left] in e'. set (e1 := lb_next K tm e) in *.
    assert (E1 : NoDup (lb_realized e1) /\ map fst (lb_witness e1) = rev (lb_realized e1) /\
      lb_total e1 = lb_halt e1 + length (lb_nonhalt e1) /\ lb_total e1 = S (lb_total e) /\
      (forall k, In k (lb_realized e1) <-> In k (lb_realized e) \/ halt_steps K tm = Some k) /\
      (forall k x, In (k, x) (lb_witness e1) -> In (k, x) (lb_witness e) \/ x = tm /\ halt_steps K tm = Some k) /\
      (forall x, In x (lb_nonhalt e1) <-> In x (lb_nonhalt e) \/ x = tm /\ halt_steps K tm = None)).
    { unfold e1, lb_next. destruct (halt_steps K tm) as [k|].
      - destruct (existsb (Nat.eqb k) (lb_realized e)) eqn:Ex; cbn [lb_realized lb_witness lb_nonhalt lb_total lb_halt].
        + apply existsb_eqb in Ex. split; [exact Hd|]. split; [exact Hw|]. split; [lia|]. split; [reflexivity|].
          split; [intros k'; split; [auto|intros [H|[= <-]]; auto]|]. split; [auto|].
          intros x. split; [auto|]. intros [H|(_ & H)]; [auto|discriminate].
        + assert (Nx : ~ In k (lb_realized e)) by (rewrite <- existsb_eqb, Ex; discriminate).
          split; [now constructor|]. split; [rewrite map_app, Hw; reflexivity|]. split; [lia|]. split; [reflexivity|].
          split; [intros k'; simpl; split; [intros [<-|H]; auto|intros [H|[= <-]]; auto]|].
          split; [intros k' x H; apply in_app_or in H; destruct H as [H|[[= <- <-]|[]]]; auto|].
          intros x. split; [auto|]. intros [H|(_ & H)]; [auto|discriminate].
      - cbn [lb_realized lb_witness lb_nonhalt lb_total lb_halt]. split; [exact Hd|]. split; [exact Hw|].
        split; [rewrite app_length; simpl; lia|]. split; [reflexivity|].
        split; [intros k'; split; [auto|intros [H|H]; [auto|discriminate]]|]. split; [auto|].
        intros x. rewrite in_app_iff. simpl. split; [intros [H|[<-|[]]]; auto|intros [H|(-> & _)]; auto]. }
    destruct E1 as (A1 & A2 & A3 & A4 & A5 & A6 & A7). destruct (IH e1 A1 A2 A3) as (B1 & B2 & B3 & B4 & B5 & B6 & B7).
    fold e' in B1, B2, B3, B4, B5, B6, B7.
    split; [|split; [exact B2|split; [exact B3|split; [|split; [|split; [simpl; lia|exact B7]]]]]].
    + intros k. rewrite B1, A5. split.
      * intros [[H|H]|(x & H1 & H2)]; [auto|right; exists tm; simpl; auto|right; exists x; simpl; auto].
      * intros [H|(x & [<-|H1] & H2)]; eauto.
    + intros k x H. destruct (B4 _ _ H) as [H1|(H1 & H2)]; [|right; simpl; auto].
      destruct (A6 _ _ H1) as [H2|(-> & H2)]; [auto|right; simpl; auto].
    + intros x. rewrite B5, A7. simpl. split; [intros [[H|(-> & H)]|(H1 & H2)]; auto|intros [H|([<-|H1] & H2)]; auto].
Qed.

Lemma min_missing_spec set : 1 <= min_missing set /\ ~ In (min_missing set) set /\ forall i, 1 <= i < min_missing set -> In i set.
Proof.
  unfold min_missing. assert (G : forall fuel i, 1 <= i -> (forall x, 1 <= x < i -> In x set) -> length set < i + fuel - 1 ->
    let v := min_missing_from set fuel i in 1 <= v /\ ~ In v set /\ forall x, 1 <= x < v -> In x set).
  { induction fuel as [|fuel IH]; intros i Hi Hx Hl; cbn [min_missing_from].
    - exfalso. assert (H : length (seq 1 (i - 1)) <= length set).
      { apply NoDup_incl_length; [apply seq_NoDup|]. intros x H. apply in_seq in H. apply Hx. lia. }
      rewrite seq_length in H. lia.
    - destruct (existsb (Nat.eqb i) set) eqn:E.
      + apply IH; [lia| |lia]. intros x H. destruct (Nat.eq_dec x i) as [-> |Hne]; [now apply existsb_eqb|apply Hx; lia].
      + split; [exact Hi|]. split; [|exact Hx]. rewrite <- existsb_eqb, E. discriminate. }
  apply G; [lia| |lia]. intros x Hx. lia.
Qed.

Lemma realizable_node n m k : 0 < n -> 0 < m -> realizable n m k ->
  exists tab q s t, node n m false false tab /\ halts_at (table_of tab) initial k q s false t.
Proof.
  intros Hn Hm (M & HM & q & s & b & t & h & x & w & d & -> & E & -> & -> & Es & _).
  destruct (C43_no_machine_missed n m false M h x w d b Hn Hm HM E Es) as (tab & _ & _ & _ & N & _ & _ & _ & _ & _ & _ & q & s & t' & H & _).
  eauto 10.
Qed.

Lemma lb_run n m K : 2 <= n -> 2 <= m -> exists nodes, Forall (like n m) nodes /\
  let e := fold_left (fun s tm => lb_next K tm s) nodes lb_init in
  let v := min_missing (lb_realized e) in
  (forall fuel, length nodes <= fuel -> lb_enum n m K fuel = Done (e, if v <? K then Some v else None)) /\
  NoDup (map (fun x => to_tab (c_trans x)) nodes) /\
  (forall tab k i j b t, node n m false false tab -> halts_at (table_of tab) initial k i j b t -> k <= K ->
      exists tm, In tm nodes /\ to_tab (c_trans tm) = tab) /\
  (forall tm, In tm nodes -> node n m false false (to_tab (c_trans tm))) /\
  (forall tab c, node n m false false tab -> steps (table_of tab) K initial = Some c ->
      exists tm, In tm nodes /\ extends (table_of (to_tab (c_trans tm))) (table_of tab) /\
        steps (table_of (to_tab (c_trans tm))) K initial = Some c).
Proof.
  intros Hn Hm. destruct (lb_runs n m K Hn Hm) as (nodes & Ln & Ef & Nd & Nn & Nh & Nl). exists nodes. split; [exact Ln|].
  intros e v. split; [intros fuel Hf; unfold lb_enum; rewrite (Ef fuel Hf); reflexivity|]. auto.
Qed.

Lemma lb_mono n m K f1 f2 r : lb_enum n m K f1 = Done r -> f1 <= f2 -> lb_enum n m K f2 = Done r.
Proof.
  assert (Mono : forall f1 f2 todos s r, cpp_enumerate (lb_filter K) false f1 todos s = Done r -> f1 <= f2 ->
    cpp_enumerate (lb_filter K) false f2 todos s = Done r).
  { clear. induction f1 as [|f1 IH]; intros f2 todos s r H Hf; (destruct todos as [|tm todos]; [destruct f2; exact H|]); [discriminate|].
    destruct f2 as [|f2]; [lia|]. cbn [cpp_enumerate] in *. destruct (lb_filter K tm s) as [([last|] & s')|]; [| |discriminate];
      (apply IH; [exact H|lia]). }
  intros E Hf. unfold lb_enum in *. destruct (cpp_enumerate (lb_filter K) false f1 [empty_tm n m] lb_init) as [e0| |] eqn:E0; [|discriminate|discriminate].
  now rewrite (Mono _ f2 _ _ _ E0 Hf).
Qed.

(** ** The theorems *)

(** With at least two states and two symbols the program ends, it never reads outside its tables, and
    - the set of step counts it collects has exactly those up to [max_steps] with which some machine halts,
    - it prints a number exactly if the Lazy Beaver number is smaller than [max_steps], and then it prints that number. *)
Theorem C69_lazy_beaver n m max_steps : 2 <= n -> 2 <= m ->
  exists enough, forall fuel, enough <= fuel -> exists e printed, lb_enum n m max_steps fuel = Done (e, printed) /\
    (forall k, In k (lb_realized e) <-> k <= max_steps /\ realizable n m k) /\
    (forall v, printed = Some v <-> v < max_steps /\ lazy_beaver_number n m v).
Proof.
  intros Hn Hm. destruct (lb_run n m max_steps Hn Hm) as (nodes & Ln & Ef & _ & Nh & Nn & _).
  exists (length nodes). intros fuel Hf. rewrite (Ef fuel Hf). set (e := fold_left _ nodes lb_init) in *.
  eexists e, _. split; [reflexivity|].
  destruct (fold_lb max_steps nodes lb_init (NoDup_nil _) eq_refl eq_refl) as (R1 & _). fold e in R1.
  assert (R : forall k, In k (lb_realized e) <-> k <= max_steps /\ realizable n m k).
  { intros k. rewrite R1. split.
    - intros [[]|(tm & Hin & E)]. rewrite Forall_forall in Ln. pose proof (Ln _ Hin) as Hl.
      apply (halt_steps_some n m) in E; auto. destruct E as (Hk & H). split; [exact Hk|]. exists (cpp_machine tm). split; [|exact H].
      intros i j w d q Hi Hj Eg. rewrite <- (machine_tab n m) in Eg by apply Hl.
      apply (wf_in_range _ _ _ (lk_wf _ _ _ Hl) i j w d q); auto.
    - intros (Hk & H). right. destruct (realizable_node n m k ltac:(lia) ltac:(lia) H) as (tab & q & s & t & N & Hh).
      destruct (Nh tab k q s false t N Hh Hk) as (tm & Hin & E). exists tm. split; [exact Hin|].
      rewrite Forall_forall in Ln. pose proof (Ln _ Hin) as Hl. apply (halt_steps_some n m); auto. split; [exact Hk|].
      exists q, s, false, t. subst tab. eapply halts_ext; [|exact Hh]. now apply (machine_tab n m), Hl. }
  split; [exact R|]. destruct (min_missing_spec (lb_realized e)) as (V1 & V2 & V3). set (v0 := min_missing (lb_realized e)) in *.
  intros v. split.
  - destruct (Nat.ltb_spec v0 max_steps); [|discriminate]. intros [= <-]. split; [assumption|]. split; [exact V1|]. split.
    + intros Hr. apply V2. apply R. split; [lia|exact Hr].
    + intros i Hi. apply (R i), V3, Hi.
  - intros (Hv & L1 & L2 & L3). assert (v = v0).
    { destruct (Nat.lt_trichotomy v v0) as [H|[H|H]]; [|exact H|].
      - exfalso. apply L2. apply (R v), V3. lia.
      - exfalso. apply V2. apply R. split; [lia|]. apply L3. lia. }
    subst v0. destruct (Nat.ltb_spec (min_missing (lb_realized e)) max_steps); [congruence|lia].
Qed.

(** so every number printed is the Lazy Beaver number *)
Theorem C69_printed n m max_steps fuel e v : 2 <= n -> 2 <= m -> lb_enum n m max_steps fuel = Done (e, Some v) -> lazy_beaver_number n m v.
Proof.
  intros Hn Hm E. destruct (C69_lazy_beaver n m max_steps Hn Hm) as (N & H). destruct (H (Nat.max N fuel) ltac:(lia)) as (e' & p & E' & _ & H2).
  rewrite (lb_mono _ _ _ _ (Nat.max N fuel) _ E ltac:(lia)) in E'. injection E' as <- <-. now apply (H2 v).
Qed.

(** The files: the witness file has one line for each number collected and its machine really halts at that step; every
    machine of the other file takes [max_steps] steps without halting; and the statistics count the machines. *)
Theorem C69_files n m max_steps fuel e printed : 2 <= n -> 2 <= m -> lb_enum n m max_steps fuel = Done (e, printed) ->
  NoDup (map fst (lb_witness e)) /\
  (forall k, In k (lb_realized e) <-> exists tm, In (k, tm) (lb_witness e)) /\
  (forall k tm, In (k, tm) (lb_witness e) -> in_range n m (cpp_machine tm) /\ exists q s b t, halts_at (cpp_machine tm) initial k q s b t) /\
  (forall tm, In tm (lb_nonhalt e) -> in_range n m (cpp_machine tm) /\ exists c, steps (cpp_machine tm) max_steps initial = Some c) /\
  lb_total e = lb_halt e + length (lb_nonhalt e).
Proof.
  intros Hn Hm E. destruct (lb_run n m max_steps Hn Hm) as (nodes & Ln & Ef & _ & Nh & Nn & _).
  assert (Ee : e = fold_left (fun s tm => lb_next max_steps tm s) nodes lb_init).
  { specialize (Ef (Nat.max (length nodes) fuel) ltac:(lia)). rewrite (lb_mono _ _ _ _ (Nat.max (length nodes) fuel) _ E ltac:(lia)) in Ef.
    congruence. }
  destruct (fold_lb max_steps nodes lb_init (NoDup_nil _) eq_refl eq_refl) as (_ & R2 & R3 & R4 & R5 & R6 & R7).
  cbv zeta in R2, R3, R4, R5, R6, R7. rewrite <- Ee in R2, R3, R4, R5, R6, R7. rewrite Forall_forall in Ln.
  assert (Rg : forall tm, In tm nodes -> in_range n m (cpp_machine tm)).
  { intros tm Hin i j w d q Hi Hj Eg. rewrite <- (machine_tab n m) in Eg by apply (Ln _ Hin).
    apply (wf_in_range _ _ _ (lk_wf _ _ _ (Ln _ Hin)) i j w d q); auto. }
  split; [rewrite R3; now apply NoDup_rev|]. split; [|split; [|split; [|exact R7]]].
  - intros k. rewrite in_rev, <- R3, in_map_iff. split; [intros ((k' & tm) & <- & H); eauto|intros (tm & H); exists (k, tm); auto].
  - intros k tm H. destruct (R4 _ _ H) as [[]|(Hin & Eh)]. split; [now apply Rg|].
    apply (halt_steps_some n m) in Eh; auto. apply Eh.
  - intros tm H. apply R5 in H. destruct H as [[]|(Hin & Eh)]. split; [now apply Rg|]. now apply (halt_steps_none n m) in Eh; auto.
Qed.

(** Nothing is left out of the second file: every machine that has a halting cell and takes [max_steps] steps takes them, up to
    the names of states and symbols and the side, like one of its machines. *)
Theorem C69_nonhalt_complete n m max_steps M c : 2 <= n -> 2 <= m -> in_range n m M ->
  (exists i j w d e, i < n /\ j < m /\ M i j = Stop w d e) -> steps M max_steps initial = Some c ->
  exists enough, forall fuel, enough <= fuel -> exists e printed, lb_enum n m max_steps fuel = Done (e, printed) /\
  exists tm f g b, In tm (lb_nonhalt e) /\ permutes n f /\ permutes m g /\ f 0 = 0 /\ g 0 = 0 /\
    sub_renamed f g b (cpp_machine tm) M.
Proof.
  intros Hn Hm HM Hh E. destruct (lb_run n m max_steps Hn Hm) as (nodes & Ln & Ef & _ & Nh & Nn & Nl).
  exists (length nodes). intros fuel Hf. rewrite (Ef fuel Hf). eexists _, _. split; [reflexivity|].
  destruct (C43_follows n m false M max_steps c ltac:(lia) ltac:(lia) HM (or_intror Hh) E) as (tab & f & g & b & N & P1 & P2 & P3 & P4 & Sb & Fw).
  destruct (Fw max_steps c (Nat.le_refl _) E) as (c0 & E0 & _). destruct (Nl tab c0 N E0) as (tm & Hin & Hx & Es).
  exists tm, f, g, b. rewrite Forall_forall in Ln. pose proof (Ln _ Hin) as Hl. pose proof (machine_tab n m tm (lk_wf _ _ _ Hl)) as Em.
  destruct (fold_lb max_steps nodes lb_init (NoDup_nil _) eq_refl eq_refl) as (_ & _ & _ & _ & R5 & _). cbv zeta in R5.
  split; [apply R5; right; split; [exact Hin|]; apply (halt_steps_none n m); auto; exists c0; now rewrite <- (steps_ext _ _ Em)|].
  repeat (split; [assumption|]). intros i j w d q Eg. rewrite <- Em in Eg. apply Hx in Eg. now apply Sb.
Qed.

(** With one state and two symbols the children have a second state, which the table has not: as soon as a machine may take two
    steps, the program reads outside its table.  With one symbol the same happens to symbols. *)
Theorem C69_one_state_refuted max_steps fuel : 2 <= max_steps -> 2 <= fuel -> lb_enum 1 2 max_steps fuel = Undefined.
Proof.
  intros H1 H2. destruct max_steps as [|[|K]]; [lia|lia|]. destruct fuel as [|[|F]]; [lia|lia|].
  unfold lb_enum. cbn [cpp_enumerate]. unfold lb_filter, cs_seek. cbn [cs_steps cs_init Nat.sub cs_turns].
  reflexivity.
Qed.
Theorem C69_one_symbol_refuted : exists n max_steps fuel, lb_enum n 1 max_steps fuel = Undefined.
Proof. exists 3, 20, 200. vm_compute. reflexivity. Qed.

(** Two states and two symbols: machines halt at the steps 1 to 6 (found in this order) and at no other up to 20; 61 machines are run, 19 of them halt;
    the program prints LB(2, 2) = 7.  With max_steps 7 it is inconclusive although the number is found. *)
Definition lb_view (o : outcome (lazy_beaver * option nat)) : option (list nat * nat * nat * option nat) :=
  match o with Done (e, p) => Some (map fst (lb_witness e), lb_total e, lb_halt e, p) | _ => None end.
Example C69_example :
  lb_view (lb_enum 2 2 20 100) = Some ([1; 2; 3; 6; 4; 5], 61, 19, Some 7) /\ lazy_beaver_number 2 2 7 /\
  lb_view (lb_enum 2 2 7 100) = Some ([1; 2; 3; 6; 4; 5], 61, 19, None).
Proof.
  assert (E : lb_view (lb_enum 2 2 20 100) = Some ([1; 2; 3; 6; 4; 5], 61, 19, Some 7)) by (vm_compute; reflexivity).
  split; [exact E|]. split; [|vm_compute; reflexivity]. revert E. generalize 100. intros fuel E.
  destruct (lb_enum 2 2 20 fuel) as [(e & p)| |] eqn:Ee; [|discriminate|discriminate]. cbn [lb_view] in E. injection E as _ _ _ ->.
  apply (C69_printed 2 2 20 fuel e 7); auto.
Qed.

Print Assumptions C69_lazy_beaver.
Print Assumptions C69_printed.
Print Assumptions C69_files.
Print Assumptions C69_nonhalt_complete.
Print Assumptions C69_one_state_refuted.
Print Assumptions C69_one_symbol_refuted.
