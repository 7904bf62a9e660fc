(** * C70, C71: the C++ detection of Lin recurrence (lin_recur) and the enumeration that uses it (lr_enum) *)
Require Import ZArith List Lia Bool Arith Permutation.
From Verif Require Import Spec_TM Spec_Rename M_Turing_Machine M_IO M_Enum P_Stream P_Macro P_Quint P_Tree P_Complete P_Complete2 P_Unique P_Queue
  P_EnumTree P_LinRecur Prop_Enum Prop_Count M_Cpp P_Cpp Prop_Cpp M_CppLR P_CppLR.
Import ListNotations.
Open Scope nat_scope.

(** A table as the C++ programs hold it: [n] rows of [m] cells; a cell is empty, or its symbol is one of [m] and its state one of [n] or halt. *)
Definition cpp_table (n m : nat) (tm : cpp_tm) : Prop :=
  length (c_trans tm) = n /\
  forall row, In row (c_trans tm) -> length row = m /\
    forall x, In x row -> x = empty_trans \/
      lk_undecided x = false /\ lk_symbol x < m /\ match lk_state x with SRun q => q < n | SHalt => True end.
Lemma cpp_table_wf n m tm : cpp_table n m tm -> wf_trans n m (c_trans tm).
Proof.
  intros (Hl & Hr). split; [split; [exact Hl|]|].
  - intros row H. apply (Hr row H).
  - intros i j x E. unfold cell in E. destruct (nth_error (c_trans tm) i) as [row|] eqn:Er; [|discriminate].
    destruct (Hr row (nth_error_In _ _ Er)) as (_ & H). apply H. now apply (nth_error_In _ _ E).
Qed.

(** From step [s] on the machine repeats what it does with period [p] and is moved by [o] in each period. *)
Definition repeats (T : table) (s p : nat) (o : Z) : Prop :=
  0 < p /\ forall i, exists c d, steps T (s + i) initial = Some c /\ steps T (s + i + p) initial = Some d /\
    st d = st c /\ tp d (hd d) = tp c (hd c) /\ hd d = (hd c + o)%Z.

Lemma lr_ext (T T' : table) s p : (forall i j, T i j = T' i j) -> lin_recurrent T s p -> lin_recurrent T' s p.
Proof. intros H (A & B). split; [exact A|]. intros i. rewrite <- !(steps_ext T T' H). apply B. Qed.
Lemma nonhalting_ext (T T' : table) : (forall i j, T i j = T' i j) -> nonhalting T initial -> nonhalting T' initial.
Proof. intros H A k. rewrite <- (steps_ext T T' H). apply A. Qed.

(** ** C70: LinRecurDetect *)

(** With a limit of at least 2 the function never reads outside of a vector; a halt it reports is exact; a machine that halts within
    the limit is reported; and when it finds nothing, the machine has made at least [max_steps] steps, it has not halted. *)
Theorem C70_halting_exact n m tm max_steps : 1 <= n -> 1 <= m -> cpp_table n m tm -> 2 <= max_steps ->
  lr_detect tm max_steps <> None /\
  (forall last ref k, lr_detect tm max_steps = Some (LRHalt last ref k) ->
     exists q a b t, last = Some (q, a) /\ halts_at (cpp_machine tm) initial k q a b t) /\
  (forall k q a b t, halts_at (cpp_machine tm) initial k q a b t -> k <= max_steps ->
     exists ref, lr_detect tm max_steps = Some (LRHalt (Some (q, a)) ref k)) /\
  (forall ref k, lr_detect tm max_steps = Some (LRNone ref k) ->
     ref <> None /\ max_steps <= k /\ exists c, steps (cpp_machine tm) k initial = Some c).
Proof.
  intros Hn Hm Ht Hx. pose proof (cpp_table_wf _ _ _ Ht) as W. pose proof (machine_tab n m tm W) as Em.
  destruct (detect_spec n m tm Hn Hm W max_steps) as (r & E & R1 & _). destruct (R1 Hx) as (R & Rn). rewrite E.
  assert (NH : nonhalting (table_of (to_tab (c_trans tm))) initial -> forall k q a b t, ~ halts_at (cpp_machine tm) initial k q a b t).
  { intros N k q a b t Hh. apply (halts_ext _ (table_of (to_tab (c_trans tm)))) in Hh; [|intros; now rewrite Em].
    destruct Hh as (h & x & w & d & -> & E1 & -> & -> & E2 & _). apply (N (S h)). rewrite steps_S, E1. unfold step. now rewrite E2. }
  split; [discriminate|]. split; [|split].
  - intros last ref k [= ->]. destruct R as ((q & a & b & t & El & Hh) & _). exists q, a, b, t. split; [exact El|]. eapply halts_ext; eauto.
  - intros k q a b t Hh Hk. pose proof Hh as Hh'. apply (halts_ext _ (table_of (to_tab (c_trans tm)))) in Hh'; [|intros; now rewrite Em].
    destruct r as [last ref h|s p o h|ref h].
    + destruct R as ((q' & a' & b' & t' & -> & Hh2) & _). destruct (halts_at_fun _ _ _ _ _ _ _ _ _ _ _ _ Hh' Hh2) as (-> & -> & -> & _).
      eauto.
    + destruct R as (_ & _ & _ & R & _). exfalso. eapply NH; [exact (lr_nonhalting _ _ _ R)|exact Hh].
    + destruct R as (j & _ & B & C & _). exfalso. apply C. destruct Hh' as (i & x & w & d & -> & E1 & -> & -> & E2 & _).
      destruct (steps (table_of (to_tab (c_trans tm))) h initial) as [c|] eqn:Es; [|reflexivity].
      destruct (steps_le _ h (S i) _ _ ltac:(lia) Es) as (z & Ez). rewrite steps_S, E1 in Ez. unfold step in Ez. rewrite E2 in Ez. discriminate.
  - intros ref k [= ->]. destruct R as (j & _ & B & C & _). split; [intros ->; now apply (Rn k)|]. split; [exact B|].
    rewrite <- (steps_ext _ _ Em). destruct (steps (table_of (to_tab (c_trans tm))) k initial) as [c|]; [eauto|now elim C].
Qed.

(** A recurrence it reports is one: start, period and offset are true and the machine never halts; no shorter period exists, at any start. *)
Theorem C70_recurrence_true n m tm max_steps s p o k : 1 <= n -> 1 <= m -> cpp_table n m tm ->
  lr_detect tm max_steps = Some (LRRec s p o k) ->
  nonhalting (cpp_machine tm) initial /\ repeats (cpp_machine tm) s p o /\ k = s + p /\
  (forall s' p' o', repeats (cpp_machine tm) s' p' o' -> p <= p').
Proof.
  intros Hn Hm Ht E. pose proof (cpp_table_wf _ _ _ Ht) as W. pose proof (machine_tab n m tm W) as Em.
  destruct (detect_spec n m tm Hn Hm W max_steps) as (r & E' & R1 & R2). rewrite E in E'. injection E' as <-.
  destruct (Nat.le_gt_cases max_steps 1) as [Hx|Hx]; [specialize (R2 Hx); discriminate|]. destruct (R1 Hx) as ((_ & Hp & -> & LR0 & MIN & c & d & Ec & Ed & ->) & _).
  split; [apply (nonhalting_ext _ _ Em), (lr_nonhalting _ _ _ LR0)|]. split; [split; [lia|]|split; [reflexivity|]].
  - intros i. destruct (lr_heads _ s p c d LR0 Ec Ed i) as (c' & d' & A1 & A2 & A3 & A4 & A5). exists c', d'. rewrite <- !(steps_ext _ _ Em). auto.
  - intros s' p' o' (P' & H'). destruct (Nat.le_gt_cases p p') as [|Lt]; [assumption|]. exfalso. apply (MIN p'); [lia|].
    apply (lr_period_from _ s p s' p' LR0). split; [exact P'|]. intros i. rewrite !(steps_ext _ _ Em).
    destruct (H' i) as (c' & d' & A1 & A2 & A3 & A4 & _). exists c', d'. auto.
Qed.

(** A machine that repeats is found if a power of two below the limit is as large as the start and the period. *)
Theorem C70_recurrence_found n m tm max_steps s p o j : 1 <= n -> 1 <= m -> cpp_table n m tm -> repeats (cpp_machine tm) s p o ->
  s <= 2 ^ j -> p <= 2 ^ j -> 2 ^ j < max_steps -> exists s' p' o' k, lr_detect tm max_steps = Some (LRRec s' p' o' k).
Proof.
  intros Hn Hm Ht (P & H) Hs Hp Hj. pose proof (cpp_table_wf _ _ _ Ht) as W. pose proof (machine_tab n m tm W) as Em.
  assert (LR0 : lin_recurrent (table_of (to_tab (c_trans tm))) s p).
  { split; [exact P|]. intros i. rewrite !(steps_ext _ _ Em). destruct (H i) as (c & d & A1 & A2 & A3 & A4 & _). exists c, d. auto. }
  pose proof (Nat.pow_nonzero 2 j ltac:(lia)) as Pj.
  destruct (detect_spec n m tm Hn Hm W max_steps) as (r & E & R1 & _). destruct (R1 ltac:(lia)) as (R & _). rewrite E.
  destruct r as [last ref h|s' p' o' h|ref h]; [| |].
  - exfalso. destruct R as ((q & a & b & t & _ & i & x & w & d & -> & E1 & -> & -> & E2 & _) & _).
    apply (lr_nonhalting _ _ _ LR0 (S i)). rewrite steps_S, E1. unfold step. now rewrite E2.
  - eauto 10.
  - exfalso. destruct R as (j' & A & B & _ & D & _). rewrite Nat.mul_1_l in A.
    assert (Lt : j < j') by (apply (Nat.pow_lt_mono_r_iff 2); lia).
    specialize (D j Lt). rewrite Nat.mul_1_l in D. apply (D p); [lia|]. now apply (lr_later _ s).
Qed.

(** With a limit of 0 or 1 every machine is left undecided, also one that halts at its first step, and the number of steps of the
    reference configuration that is printed is not initialized. *)
Theorem C70_limit_one_refuted n m tm max_steps : 1 <= n -> 1 <= m -> cpp_table n m tm -> max_steps <= 1 ->
  lr_detect tm max_steps = Some (LRNone None 1).
Proof.
  intros Hn Hm Ht Hx. destruct (detect_spec n m tm Hn Hm (cpp_table_wf _ _ _ Ht) max_steps) as (r & E & _ & R2). now rewrite E, (R2 Hx).
Qed.
Example C70_limit_one_case : cpp_table 2 2 (empty_tm 2 2) /\ halts_at (cpp_machine (empty_tm 2 2)) initial 1 0 0 false (put (fun _ => 0) 0 1).
Proof.
  split.
  - split; [reflexivity|]. intros row [<-|[<-|[]]]; (split; [reflexivity|]); intros x [<-|[<-|[]]]; now left.
  - exists 0, initial, 1, R. repeat split.
Qed.

(** A0 -> 1RB, B0 -> 1RA repeats with period 2, moving by 2; it is found with the limit 8 and not with the limit 2.
    With B0 -> 0LA instead the machine halts at step 3. *)
Definition lr_case : cpp_tm :=
  CppTM 2 2 1 1 true 1 [[Lookup 1 R (SRun 1) false; empty_trans]; [Lookup 1 R (SRun 0) false; empty_trans]].
Example C70_example : cpp_table 2 2 lr_case /\ lr_detect lr_case 8 = Some (LRRec 2 2 2 4) /\ lr_detect lr_case 2 = Some (LRNone (Some 1) 2) /\
  lr_detect (child_tm lr_case 1 0 (Lookup 0 L (SRun 0) false)) 20 = Some (LRHalt (Some (0, 1)) 2 3).
Proof.
  split; [|vm_compute; auto]. split; [reflexivity|]. intros row [<-|[<-|[]]]; (split; [reflexivity|]);
    intros x [<-|[<-|[]]]; try (now left); right; cbn; auto.
Qed.

(** ** C71: lr_enum *)

Definition lr_next (only : bool) (K : nat) (tm : cpp_tm) (e : lr_files) : lr_files :=
  match lr_detect tm K with
  | Some (LRHalt _ _ k) => if only then e else LRFiles (f_halt e ++ [(tm, k)]) (f_inf e) (f_unknown e)
  | Some (LRRec s p o _) => if only then e else LRFiles (f_halt e) (f_inf e ++ [(tm, p, o, s)]) (f_unknown e)
  | _ => LRFiles (f_halt e) (f_inf e) (f_unknown e ++ [tm])
  end.

Lemma lr_filter_spec n m only K tm e : 1 <= n -> 1 <= m -> like n m tm ->
  lr_filter_tm only K tm e = Some (lb_verdict (lr_bound K) (to_tab (c_trans tm)), lr_next only K tm e).
Proof.
  intros Hn Hm Hl. rewrite <- (decide_spec n m K tm Hn Hm (lk_wf _ _ _ Hl)). unfold lr_filter_tm, lr_decide, lr_next.
  destruct (detect_spec n m tm Hn Hm (lk_wf _ _ _ Hl) K) as (r & -> & _). destruct r; reflexivity.
Qed.

Definition all_machines (e : lr_files) : list cpp_tm := map fst (f_halt e) ++ map (fun x => fst (fst (fst x))) (f_inf e) ++ f_unknown e.

Lemma fold_lr K nodes : (forall tm, In tm nodes -> lr_detect tm K <> None) -> forall e,
  let e' := fold_left (fun s tm => lr_next false K tm s) nodes e in
  Permutation (all_machines e') (all_machines e ++ nodes) /\
  (forall tm k, In (tm, k) (f_halt e') <-> In (tm, k) (f_halt e) \/ In tm nodes /\ exists last ref, lr_detect tm K = Some (LRHalt last ref k)) /\
  (forall tm p o s, In (tm, p, o, s) (f_inf e') <-> In (tm, p, o, s) (f_inf e) \/ In tm nodes /\ exists k, lr_detect tm K = Some (LRRec s p o k)) /\
  (forall tm, In tm (f_unknown e') <-> In tm (f_unknown e) \/ In tm nodes /\ exists ref k, lr_detect tm K = Some (LRNone ref k)) /\
  exists l, f_unknown e' = f_unknown e ++ l /\
  forall e1, fold_left (fun s tm => lr_next true K tm s) nodes e1 = LRFiles (f_halt e1) (f_inf e1) (f_unknown e1 ++ l).
Proof.
  induction nodes as [|tm nodes IH]; intros Hd e e'.
  - cbn in e'. subst e'. cbn [fold_left]. rewrite app_nil_r. split; [reflexivity|].
    split; [intros; split; [auto|intros [H|([] & _)]; auto]|]. split; [intros; split; [auto|intros [H|([] & _)]; auto]|].
    split; [intros; split; [auto|intros [H|([] & _)]; auto]|]. exists []. rewrite app_nil_r. split; [reflexivity|]. intros [h i u]. cbn [f_halt f_inf f_unknown]. now rewrite app_nil_r.
  - cbn [fold_left] in e'. specialize (IH (fun x Hx => Hd x (or_intror Hx)) (lr_next false K tm e)). cbv zeta in IH. fold e' in IH.
    destruct IH as (I1 & I2 & I3 & I4 & l & I5 & I6). specialize (Hd tm (or_introl eq_refl)).
    destruct (lr_detect tm K) as [r|] eqn:E; [|now elim Hd]. clear Hd.
    assert (P1 : Permutation (all_machines (lr_next false K tm e)) (all_machines e ++ [tm])).
    { unfold all_machines, lr_next. rewrite E. destruct r; cbn [f_halt f_inf f_unknown]; rewrite ?map_app; cbn [map fst].
      - rewrite <- !app_assoc. apply Permutation_app_head. cbn [app]. transitivity ((map (fun x => fst (fst (fst x))) (f_inf e) ++ f_unknown e) ++ [tm]); [apply Permutation_cons_append|now rewrite <- app_assoc].
      - rewrite <- !app_assoc. apply Permutation_app_head, Permutation_app_head. cbn [app]. apply Permutation_cons_append.
      - rewrite !app_assoc. reflexivity. }
    split; [rewrite I1, P1, <- app_assoc; reflexivity|]. split; [|split; [|split]].
    + intros x k. rewrite I2. unfold lr_next at 1. rewrite E. destruct r as [last ref h|s p o h|ref h]; cbn [f_halt].
      * rewrite in_app_iff. split; [intros [[H|[[= <- <-]|[]]]|(H1 & H2)]; [auto|right; split; [now left|rewrite E; eauto]|right; split; [now right|auto]]|].
        intros [H|([<-|H1] & H2)]; [auto| |auto]. rewrite E in H2. destruct H2 as (? & ? & [= _ _ <-]). left. right. now left.
      * split; [intros [H|(H1 & H2)]; [auto|right; split; [now right|auto]]|]. intros [H|([<-|H1] & H2)]; [auto| |auto].
        rewrite E in H2. destruct H2 as (? & ? & [=]).
      * split; [intros [H|(H1 & H2)]; [auto|right; split; [now right|auto]]|]. intros [H|([<-|H1] & H2)]; [auto| |auto].
        rewrite E in H2. destruct H2 as (? & ? & [=]).
    + intros x p' o' s'. rewrite I3. unfold lr_next at 1. rewrite E. destruct r as [last ref h|s p o h|ref h]; cbn [f_inf].
      * split; [intros [H|(H1 & H2)]; [auto|right; split; [now right|auto]]|]. intros [H|([<-|H1] & H2)]; [auto| |auto].
        rewrite E in H2. destruct H2 as (? & [=]).
      * rewrite in_app_iff. split; [intros [[H|[[= <- <- <- <-]|[]]]|(H1 & H2)]; [auto|right; split; [now left|rewrite E; eauto]|right; split; [now right|auto]]|].
        intros [H|([<-|H1] & H2)]; [auto| |auto]. rewrite E in H2. destruct H2 as (? & [= <- <- <- _]). left. right. now left.
      * split; [intros [H|(H1 & H2)]; [auto|right; split; [now right|auto]]|]. intros [H|([<-|H1] & H2)]; [auto| |auto].
        rewrite E in H2. destruct H2 as (? & [=]).
    + intros x. rewrite I4. unfold lr_next at 1. rewrite E. destruct r as [last ref h|s p o h|ref h]; cbn [f_unknown].
      * split; [intros [H|(H1 & H2)]; [auto|right; split; [now right|auto]]|]. intros [H|([<-|H1] & H2)]; [auto| |auto].
        rewrite E in H2. destruct H2 as (? & ? & [=]).
      * split; [intros [H|(H1 & H2)]; [auto|right; split; [now right|auto]]|]. intros [H|([<-|H1] & H2)]; [auto| |auto].
        rewrite E in H2. destruct H2 as (? & ? & [=]).
      * rewrite in_app_iff. split; [intros [[H|[<-|[]]]|(H1 & H2)]; [auto|right; split; [now left|rewrite E; eauto]|right; split; [now right|auto]]|].
        intros [H|([<-|H1] & H2)]; [auto| |auto]. left. right. now left.
    + unfold lr_next in I5. rewrite E in I5. destruct r as [last ref h|s p o h|ref h]; cbn [f_unknown] in I5.
      * exists l. split; [exact I5|]. intros e1. cbn [fold_left]. rewrite I6. unfold lr_next. now rewrite E.
      * exists l. split; [exact I5|]. intros e1. cbn [fold_left]. rewrite I6. unfold lr_next. now rewrite E.
      * exists (tm :: l). rewrite <- app_assoc in I5. split; [exact I5|]. intros e1. cbn [fold_left]. rewrite I6. unfold lr_next. rewrite E.
        cbn [f_halt f_inf f_unknown]. now rewrite <- app_assoc.
Qed.

Lemma like_table n m tm : like n m tm -> cpp_table n m tm.
Proof.
  intros Hl. destruct (lk_wf _ _ _ Hl) as ((H1 & H2) & H3). split; [exact H1|]. intros row Hr. split; [now apply H2|]. intros x Hx.
  apply In_nth_error in Hr, Hx. destruct Hr as (i & Er), Hx as (j & Ex). apply (H3 i j). unfold cell. now rewrite Er.
Qed.

Lemma lr_run n m K allow : 2 <= n -> 2 <= m -> exists nodes, Forall (like n m) nodes /\
  (forall only fuel, length nodes <= fuel -> lr_enum n m K allow only fuel = Done (fold_left (fun s tm => lr_next only K tm s) nodes lr_init)) /\
  NoDup (map (fun x => to_tab (c_trans x)) nodes) /\
  (forall tm, In tm nodes -> node n m allow true (to_tab (c_trans tm))) /\
  (forall tab k i j b t, node n m allow true tab -> halts_at (table_of tab) initial k i j b t -> k <= lr_bound K ->
      exists tm, In tm nodes /\ to_tab (c_trans tm) = tab) /\
  (forall tab c, node n m allow true tab -> steps (table_of tab) (lr_bound K) initial = Some c ->
      exists tm, In tm nodes /\ extends (table_of (to_tab (c_trans tm))) (table_of tab) /\
        steps (table_of (to_tab (c_trans tm))) (lr_bound K) initial = Some c).
Proof.
  intros Hn Hm. destruct (like_1rb n m Hn Hm) as (L0 & E0). destruct (cpp_runs n m (lr_bound K) Hn Hm allow true _ L0 E0) as (nodes & Ln & Fn & H).
  exists nodes. split; [exact Ln|]. split; [|exact H]. intros only fuel Hf. unfold lr_enum, lr_root.
  apply (enumerate_forest _ allow (fun tm => lb_verdict (lr_bound K) (to_tab (c_trans tm))) (lr_next only K) (like n m)); auto.
  intros tm s Hl. apply (lr_filter_spec n m); auto; lia.
Qed.

Lemma lr_mono n m K allow only f1 f2 r : lr_enum n m K allow only f1 = Done r -> f1 <= f2 -> lr_enum n m K allow only f2 = Done r.
Proof.
  unfold lr_enum. generalize [lr_root n m true] lr_init. intros todos s. revert f2 todos s r.
  induction f1 as [|f1 IH]; intros f2 todos s r H Hf; (destruct todos as [|tm todos]; [destruct f2; exact H|]); [discriminate|].
  destruct f2 as [|f2]; [lia|]. cbn [cpp_enumerate] in *. destruct (lr_filter_tm only K tm s) as [([last|] & s')|]; [| |discriminate];
    (apply IH; [exact H|lia]).
Qed.
Lemma lr_result_of n m K allow only fuel e : 2 <= n -> 2 <= m -> lr_enum n m K allow only fuel = Done e ->
  exists nodes, Forall (like n m) nodes /\ e = fold_left (fun s tm => lr_next only K tm s) nodes lr_init /\
  NoDup (map (fun x => to_tab (c_trans x)) nodes) /\
  (forall tm, In tm nodes -> node n m allow true (to_tab (c_trans tm))) /\
  (forall tab k i j b t, node n m allow true tab -> halts_at (table_of tab) initial k i j b t -> k <= lr_bound K ->
      exists tm, In tm nodes /\ to_tab (c_trans tm) = tab) /\
  (forall tab c, node n m allow true tab -> steps (table_of tab) (lr_bound K) initial = Some c ->
      exists tm, In tm nodes /\ extends (table_of (to_tab (c_trans tm))) (table_of tab) /\
        steps (table_of (to_tab (c_trans tm))) (lr_bound K) initial = Some c).
Proof.
  intros Hn Hm E. destruct (lr_run n m K allow Hn Hm) as (nodes & Ln & Ef & H). exists nodes. split; [exact Ln|]. split; [|exact H].
  specialize (Ef only (Nat.max (length nodes) fuel) ltac:(lia)). rewrite (lr_mono _ _ _ _ _ _ (Nat.max (length nodes) fuel) _ E ltac:(lia)) in Ef.
  congruence.
Qed.

(** The program ends, for every limit, without reading outside of a vector.  The file of the undecided machines does not depend on
    only_unknown (which has no defined value when the program is built without Boost), the other two are empty when it is set. *)
Theorem C71_ends n m max_steps allow : 2 <= n -> 2 <= m -> exists enough, forall fuel, enough <= fuel ->
  exists e, lr_enum n m max_steps allow false fuel = Done e /\ lr_enum n m max_steps allow true fuel = Done (LRFiles [] [] (f_unknown e)).
Proof.
  intros Hn Hm. destruct (lr_run n m max_steps allow Hn Hm) as (nodes & Ln & Ef & _). exists (length nodes). intros fuel Hf.
  rewrite !Ef by exact Hf. eexists. split; [reflexivity|]. rewrite Forall_forall in Ln.
  destruct (fold_lr max_steps nodes) with (e := lr_init) as (_ & _ & _ & _ & l & H1 & H2).
  { intros tm Hin. destruct (detect_spec n m tm ltac:(lia) ltac:(lia) (lk_wf _ _ _ (Ln _ Hin)) max_steps) as (r & -> & _). discriminate. }
  rewrite H2. cbn [f_halt f_inf f_unknown lr_init app] in *. now rewrite H1.
Qed.

(** Every line of the files is true, and no machine is in them twice. *)
Theorem C71_files n m max_steps allow fuel e : 2 <= n -> 2 <= m -> 2 <= max_steps -> lr_enum n m max_steps allow false fuel = Done e ->
  (forall tm, In tm (all_machines e) -> in_range n m (cpp_machine tm) /\ cpp_machine tm 0 0 = Go 1 R 1) /\
  (forall tm k, In (tm, k) (f_halt e) -> exists q a b t, halts_at (cpp_machine tm) initial k q a b t) /\
  (forall tm p o s, In (tm, p, o, s) (f_inf e) -> nonhalting (cpp_machine tm) initial /\ repeats (cpp_machine tm) s p o) /\
  (forall tm, In tm (f_unknown e) -> exists c, steps (cpp_machine tm) (2 ^ Nat.log2_up max_steps) initial = Some c) /\
  NoDup (map c_trans (all_machines e)).
Proof.
  intros Hn Hm Hx E. destruct (lr_result_of _ _ _ _ _ _ _ Hn Hm E) as (nodes & Ln & -> & Nd & Nn & _). rewrite Forall_forall in Ln.
  destruct (fold_lr max_steps nodes) with (e := lr_init) as (P & H1 & H2 & H3 & _).
  { intros tm Hin. destruct (detect_spec n m tm ltac:(lia) ltac:(lia) (lk_wf _ _ _ (Ln _ Hin)) max_steps) as (r & -> & _). discriminate. }
  set (e := fold_left _ nodes lr_init) in *. change (all_machines lr_init ++ nodes) with nodes in P.
  split; [|split; [|split; [|split]]].
  - intros tm Hin. apply (Permutation_in _ P) in Hin. pose proof (machine_tab n m tm (lk_wf _ _ _ (Ln _ Hin))) as Em. split.
    + intros i j w d q Hi Hj Eg. rewrite <- Em in Eg. apply (wf_in_range _ _ _ (lk_wf _ _ _ (Ln _ Hin)) i j w d q); auto.
    + rewrite <- Em. pose proof (Nn _ Hin) as N. clear -N Hn Hm. remember (to_tab (c_trans tm)) as tab. clear Heqtab tm.
      induction N as [tab E|tab k i j b t l tab' N IH Hh El Hin].
      * destruct (like_1rb n m Hn Hm) as (L0 & E0). rewrite E0 in E. injection E as <-. rewrite (machine_tab n m _ (lk_wf _ _ _ L0)).
        unfold cpp_machine. cbn [child_tm empty_tm c_trans]. destruct n as [|n0]; [lia|]. destruct m as [|m0]; [lia|]. reflexivity.
      * destruct (P_Enumerate.node_tinv n m allow true tab ltac:(lia) ltac:(lia) N) as (a & c & Ht).
        assert (Hc : child n m allow tab tab') by (exists k, i, j, b, t, l; auto).
        destruct (child_spec n m a c allow tab tab' Ht Hc) as (h & x & w0 & d0 & w & d & q & Ex & Es & -> & _ & _ & _ & _ & _ & He & _).
        now apply He.
  - intros tm k Hin. apply H1 in Hin. destruct Hin as [[]|(Hin & last & ref & E1)].
    destruct (C70_halting_exact n m tm max_steps ltac:(lia) ltac:(lia) (like_table _ _ _ (Ln _ Hin)) Hx) as (_ & G & _).
    destruct (G _ _ _ E1) as (q & a & b & t & _ & Hh). eauto.
  - intros tm p o s Hin. apply H2 in Hin. destruct Hin as [[]|(Hin & k & E1)].
    destruct (C70_recurrence_true n m tm max_steps s p o k ltac:(lia) ltac:(lia) (like_table _ _ _ (Ln _ Hin)) E1) as (A & B & _). auto.
  - intros tm Hin. apply H3 in Hin. destruct Hin as [[]|(Hin & ref & k & E1)].
    pose proof (decide_spec n m max_steps tm ltac:(lia) ltac:(lia) (lk_wf _ _ _ (Ln _ Hin))) as D. unfold lr_decide in D. rewrite E1 in D.
    assert (X : stop_at (table_of (to_tab (c_trans tm))) (lr_bound max_steps) initial = None).
    { unfold lb_verdict in D. destruct (stop_at _ (lr_bound max_steps) initial); [discriminate|reflexivity]. }
    apply stop_at_none in X. unfold lr_bound in X. destruct (Nat.leb_spec max_steps 1); [lia|].
    rewrite <- (steps_ext _ _ (machine_tab n m tm (lk_wf _ _ _ (Ln _ Hin)))). exact X.
  - apply (Permutation_NoDup (Permutation_sym (Permutation_map c_trans P))). rewrite <- (map_map c_trans to_tab) in Nd. now apply NoDup_map_inv in Nd.
Qed.

(** Nothing is lost: take any machine of the class whose first transition writes a symbol and changes the state.
    If it halts within 2^ceil(log2 max_steps) steps, it is in the first file, up to names and side, with exactly that number of steps; if it does
    not, and has a halting cell or machines without one are wanted, it begins like a machine of the other two files. *)
Theorem C71_no_machine_missed n m max_steps allow fuel e M w0 d0 q0 : 2 <= n -> 2 <= m -> 2 <= max_steps ->
  lr_enum n m max_steps allow false fuel = Done e -> in_range n m M -> M 0 0 = Go w0 d0 q0 -> w0 <> 0 -> q0 <> 0 ->
  (forall k q a b t, halts_at M initial k q a b t -> k <= 2 ^ Nat.log2_up max_steps ->
     exists tm f g r, In (tm, k) (f_halt e) /\ permutes n f /\ permutes m g /\ f 0 = 0 /\ g 0 = 0 /\ sub_renamed f g r (cpp_machine tm) M) /\
  (forall c, steps M (2 ^ Nat.log2_up max_steps) initial = Some c ->
     allow = true \/ (exists i j w d b, i < n /\ j < m /\ M i j = Stop w d b) ->
     exists tm f g r, (In tm (f_unknown e) \/ exists p o s, In (tm, p, o, s) (f_inf e)) /\
       permutes n f /\ permutes m g /\ f 0 = 0 /\ g 0 = 0 /\ sub_renamed f g r (cpp_machine tm) M).
Proof.
  intros Hn Hm Hx E HM E0 Hw Hq. destruct (lr_result_of _ _ _ _ _ _ _ Hn Hm E) as (nodes & Ln & -> & Nd & Nn & Ne & Nl). rewrite Forall_forall in Ln.
  destruct (fold_lr max_steps nodes) with (e := lr_init) as (P & H1 & H2 & H3 & _).
  { intros tm Hin. destruct (detect_spec n m tm ltac:(lia) ltac:(lia) (lk_wf _ _ _ (Ln _ Hin)) max_steps) as (r & -> & _). discriminate. }
  set (e := fold_left _ nodes lr_init) in *.
  assert (Eb : lr_bound max_steps = 2 ^ Nat.log2_up max_steps) by (unfold lr_bound; destruct (Nat.leb_spec max_steps 1); [lia|reflexivity]).
  rewrite Eb in Ne, Nl.
  assert (Dec : forall tm, In tm nodes -> lr_decide max_steps tm = lb_verdict (2 ^ Nat.log2_up max_steps) (to_tab (c_trans tm))).
  { intros tm Hin. rewrite <- Eb. apply (decide_spec n m); [lia|lia|apply (Ln _ Hin)]. }
  split.
  - intros k q a b t (h & x & w & d & -> & Eh & -> & -> & Es & _) Hk.
    destruct (C43_no_machine_missed_1rb n m allow M h x w d b w0 d0 q0 ltac:(lia) ltac:(lia) HM E0 Hw Hq Eh Es)
      as (tab & f & g & r & N & P1 & P2 & P3 & P4 & Sb & _ & q & s & t' & Hh & _).
    destruct (Ne tab (S h) q s false t' N Hh Hk) as (tm & Hin & Et). exists tm, f, g, r.
    pose proof (machine_tab n m tm (lk_wf _ _ _ (Ln _ Hin))) as Em.
    split; [|repeat (split; [assumption|]); intros i j w' d' q' Eg; rewrite <- Em, Et in Eg; now apply Sb].
    apply H1. right. split; [exact Hin|].
    pose proof (Dec tm Hin) as D. unfold lb_verdict in D. rewrite Et in D. rewrite (halts_stop_at _ _ _ _ _ _ _ Hh Hk) in D. cbn [option_map fst snd] in D.
    unfold lr_decide in D. destruct (lr_detect tm max_steps) as [[last ref k| |]|] eqn:Er; try discriminate.
    destruct (C70_halting_exact n m tm max_steps ltac:(lia) ltac:(lia) (like_table _ _ _ (Ln _ Hin)) Hx) as (_ & G & _).
    destruct (G _ _ _ Er) as (q1 & a1 & b1 & t1 & _ & Hh1). rewrite <- Et in Hh. apply (halts_ext _ _ _ _ _ _ _ _ Em) in Hh.
    destruct (halts_at_fun _ _ _ _ _ _ _ _ _ _ _ _ Hh Hh1) as (-> & _). eauto.
  - intros c Ec Ha. destruct (root_1rb n m M HM w0 d0 q0 ltac:(lia) ltac:(lia) E0 Hw Hq) as (root & Er & Hi).
    destruct (complete_gen n m M allow true HM root (2 ^ Nat.log2_up max_steps) c Ha Er) as (tab & f & g & r & N & P1 & P2 & P3 & P4 & Sb & Fw & _);
      [eauto|exact Ec|].
    destruct (Fw _ c (Nat.le_refl _) Ec) as (c0 & Ec0 & _). destruct (Nl tab c0 N Ec0) as (tm & Hin & Hext & Es). exists tm, f, g, r.
    pose proof (machine_tab n m tm (lk_wf _ _ _ (Ln _ Hin))) as Em.
    split; [|repeat (split; [assumption|]); intros i j w' d' q' Eg; rewrite <- Em in Eg; apply Hext in Eg; now apply Sb].
    pose proof (Dec tm Hin) as D. unfold lb_verdict in D.
    assert (X : stop_at (table_of (to_tab (c_trans tm))) (2 ^ Nat.log2_up max_steps) initial = None) by (apply stop_at_none; eauto).
    rewrite X in D. cbn [option_map] in D. unfold lr_decide in D.
    destruct (C70_halting_exact n m tm max_steps ltac:(lia) ltac:(lia) (like_table _ _ _ (Ln _ Hin)) Hx) as (G0 & G & _).
    destruct (lr_detect tm max_steps) as [[last ref k|s p o k|ref k]|] eqn:Ed; [| | |now elim G0].
    + destruct (G _ _ _ eq_refl) as (q1 & a1 & b1 & t1 & -> & _). discriminate.
    + right. exists p, o, s. apply H2. right. eauto.
    + left. apply H3. right. eauto.
Qed.

(** So if nothing is undecided, the largest number of the first file is the longest run of the class (with such a first transition). *)
Theorem C71_settles n m max_steps allow fuel e : 2 <= n -> 2 <= m -> 2 <= max_steps -> lr_enum n m max_steps allow false fuel = Done e ->
  f_unknown e = [] -> forall M w0 d0 q0 k q a b t, in_range n m M -> M 0 0 = Go w0 d0 q0 -> w0 <> 0 -> q0 <> 0 ->
  halts_at M initial k q a b t -> exists tm, In (tm, k) (f_halt e).
Proof.
  intros Hn Hm Hx E Hu M w0 d0 q0 k q a b t HM E0 Hw Hq Hh.
  destruct (C71_no_machine_missed n m max_steps allow fuel e M w0 d0 q0 Hn Hm Hx E HM E0 Hw Hq) as (G1 & G2).
  destruct (Nat.le_gt_cases k (2 ^ Nat.log2_up max_steps)) as [Hk|Hk].
  - destruct (G1 k q a b t Hh Hk) as (tm & _ & _ & _ & H & _). eauto.
  - exfalso. pose proof Hh as (h & x & w & d & -> & Eh & -> & -> & Es & _).
    destruct (steps_le M h (2 ^ Nat.log2_up max_steps) initial x ltac:(lia) Eh) as (c & Ec).
    assert (Hc : exists i j w d b, i < n /\ j < m /\ M i j = Stop w d b).
    { destruct (in_range_steps n m M HM h initial x ltac:(simpl; lia) ltac:(intros z; simpl; lia) Eh) as (B1 & B2). exists (st x), (tp x (hd x)), w, d, b. auto. }
    destruct (G2 c Ec (or_intror Hc)) as (tm & f & g & r & [H|(p & o & s & H)] & P1 & P2 & P3 & P4 & Sb); [rewrite Hu in H; destruct H|].
    destruct (C71_files n m max_steps allow fuel e Hn Hm Hx E) as (_ & _ & F3 & _). destruct (F3 _ _ _ _ H) as (Nh & _).
    destruct (steps (cpp_machine tm) (S h) initial) as [y|] eqn:Ey; [|now apply (Nh (S h))].
    destruct (renames_steps f g r _ _ Sb (S h) initial initial y) as (y' & Ey' & _).
    { apply renames_initial; auto. } { exact Ey. }
    rewrite steps_S, Eh in Ey'. unfold step in Ey'. rewrite Es in Ey'. discriminate.
Qed.

(** Two states and two symbols with the limit 20: 15 machines halt, the longest at step 6; 26 repeat; nothing is undecided. *)
Example C71_example :
  match lr_enum 2 2 20 false false 200 with
  | Done e => Some (map snd (f_halt e), length (f_inf e), f_unknown e)
  | _ => None
  end = Some ([2; 3; 6; 4; 4; 3; 6; 3; 6; 4; 6; 4; 5; 3; 5], 26, []).
Proof. vm_compute. reflexivity. Qed.

(** So no machine with two states and two symbols (and such a first transition) halts after more than 6 steps. *)
Example C71_settles_case M w0 d0 q0 k q a b t : in_range 2 2 M -> M 0 0 = Go w0 d0 q0 -> w0 <> 0 -> q0 <> 0 ->
  halts_at M initial k q a b t -> k <= 6.
Proof.
  intros HM E0 Hw Hq Hh. pose proof C71_example as X. destruct (lr_enum 2 2 20 false false 200) as [e| |] eqn:E; [|discriminate..].
  injection X as X1 _ X3. destruct (C71_settles 2 2 20 false 200 e ltac:(lia) ltac:(lia) ltac:(lia) E X3 M w0 d0 q0 k q a b t HM E0 Hw Hq Hh) as (tm & Hin).
  apply (in_map snd) in Hin. rewrite X1 in Hin. cbn [snd In] in Hin. lia.
Qed.

(** With one state the table of the start has no row for its second state. *)
Theorem C71_one_state_refuted m max_steps allow only : 2 <= m -> 2 <= max_steps -> forall fuel, 1 <= fuel ->
  lr_enum 1 m max_steps allow only fuel = Undefined.
Proof.
  intros Hm Hx fuel Hf. destruct fuel as [|fuel]; [lia|]. destruct max_steps as [|[|K]]; [lia|lia|]. destruct m as [|[|m0]]; [lia|lia|].
  unfold lr_enum, lr_root. cbn [cpp_enumerate]. unfold lr_filter_tm, lr_detect. reflexivity.
Qed.

Print Assumptions C70_halting_exact.
Print Assumptions C70_recurrence_true.
Print Assumptions C70_recurrence_found.
Print Assumptions C70_limit_one_refuted.
Print Assumptions C71_ends.
Print Assumptions C71_files.
Print Assumptions C71_no_machine_missed.
Print Assumptions C71_settles.
Print Assumptions C71_one_state_refuted.
