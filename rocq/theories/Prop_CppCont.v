(** * C73: enumerations in two phases and in parallel (lr_enum_continue, lb_enum_continue and the scripts) *)
Require Import ZArith List Lia Bool Arith Ascii Permutation Sorted.
From Verif Require Import Spec_TM Spec_Rename M_Turing_Machine M_IO M_Enum P_Quint P_IO P_Stream P_Macro P_Tree P_Complete P_Complete2 P_Unique P_Queue
  P_EnumTree P_Resume P_Count Prop_Enum Prop_Count M_Cpp P_Cpp Prop_Cpp M_CppLR P_CppLR Prop_CppLR M_CppIO P_CppIO P_CppCont.
Import ListNotations.
Open Scope nat_scope.

(** ** lr_enum *)

Definition open_tm (K : nat) (tm : cpp_tm) : bool := match lr_detect tm K with Some (LRHalt _ _ _) | Some (LRRec _ _ _ _) => false | _ => true end.
Definition halt_line (K : nat) (tm : cpp_tm) : list (cpp_tm * nat) := match lr_detect tm K with Some (LRHalt _ _ k) => [(tm, k)] | _ => [] end.
Definition inf_line (K : nat) (tm : cpp_tm) : list (cpp_tm * nat * Z * nat) := match lr_detect tm K with Some (LRRec s p o _) => [(tm, p, o, s)] | _ => [] end.

Lemma fold_lines K nodes : forall e, fold_left (fun s tm => lr_next false K tm s) nodes e =
  LRFiles (f_halt e ++ flat_map (halt_line K) nodes) (f_inf e ++ flat_map (inf_line K) nodes) (f_unknown e ++ filter (open_tm K) nodes).
Proof.
  induction nodes as [|tm nodes IH]; intros e; [cbn [fold_left flat_map filter]; rewrite !app_nil_r; now destruct e|].
  cbn [fold_left flat_map filter]. rewrite IH. unfold lr_next at 1 2 3, halt_line at 2, inf_line at 2, open_tm at 2.
  destruct (lr_detect tm K) as [[last ref k|s p o k|ref k]|]; cbn [f_halt f_inf f_unknown app]; rewrite <- ?app_assoc; reflexivity.
Qed.

Lemma detect_total n m tm K : 2 <= n -> 2 <= m -> like n m tm -> lr_detect tm K <> None.
Proof. intros Hn Hm Hl. destruct (detect_spec n m tm ltac:(lia) ltac:(lia) (lk_wf _ _ _ Hl) K) as (r & -> & _). discriminate. Qed.

Lemma expand_phase n m K1 K2 allow tm : 2 <= n -> 2 <= m -> K1 <= K2 -> like n m tm ->
  (open_tm K1 tm = false -> lb_expand (lr_bound K1) allow tm = lb_expand (lr_bound K2) allow tm /\
     halt_line K1 tm = halt_line K2 tm /\ inf_line K1 tm = inf_line K2 tm /\ open_tm K2 tm = false) /\
  (open_tm K1 tm = true -> lb_expand (lr_bound K1) allow tm = [] /\ halt_line K1 tm = [] /\ inf_line K1 tm = []).
Proof.
  intros Hn Hm HK Hl. pose proof (decide_spec n m K1 tm ltac:(lia) ltac:(lia) (lk_wf _ _ _ Hl)) as D1.
  pose proof (decide_spec n m K2 tm ltac:(lia) ltac:(lia) (lk_wf _ _ _ Hl)) as D2. pose proof (detect_total n m tm K1 Hn Hm Hl) as T1.
  pose proof (detect_mono tm K1 K2) as Mo.
  unfold lb_expand, open_tm, halt_line, inf_line. rewrite <- D1, <- D2. unfold lr_decide.
  destruct (lr_detect tm K1) as [[last ref k|s p o k|ref k]|]; [| | |congruence].
  - specialize (Mo _ HK eq_refl). cbn in Mo. rewrite Mo. split; [auto|discriminate].
  - specialize (Mo _ HK eq_refl). cbn in Mo. rewrite Mo. split; [auto|discriminate].
  - split; [discriminate|auto].
Qed.

Lemma flat_map_perm {A B} (f : A -> list B) l l' : Permutation l l' -> Permutation (flat_map f l) (flat_map f l').
Proof. intros H. rewrite !flat_map_concat_map. apply Permutation_flat_map with (g := f) in H. now rewrite !flat_map_concat_map in H. Qed.
Lemma flat_map_concat2 {A B} (f : A -> list B) ns : flat_map f (concat ns) = concat (map (flat_map f) ns).
Proof. induction ns as [|x ns IH]; [reflexivity|]. cbn [concat map]. now rewrite flat_map_app, IH. Qed.
Lemma filter_concat {A} (f : A -> bool) ns : filter f (concat ns) = concat (map (filter f) ns).
Proof. induction ns as [|x ns IH]; [reflexivity|]. cbn [concat map]. now rewrite filter_app, IH. Qed.
Lemma filter_perm {A} (f : A -> bool) l l' : Permutation l l' -> Permutation (filter f l) (filter f l').
Proof.
  induction 1 as [|x l l' P IH|x y l|a b c P1 I1 P2 I2]; [constructor| | |etransitivity; eauto]; cbn [filter].
  - destruct (f x); auto.
  - destruct (f x), (f y); try reflexivity; apply perm_swap.
Qed.

(** Enumerate with a small limit, write the undecided machines, shuffle the lines and split them into files in any way, continue each file
    with the larger limit and put the files together: this gives the same lines as one enumeration with the larger limit. *)
Theorem C73_lr_parallel n m K1 K2 allow fuel1 e1 : 2 <= n < 26 -> 2 <= m < 10 -> K1 <= K2 -> lr_enum n m K1 allow false fuel1 = Done e1 ->
  exists lines, tms_text (f_unknown e1) = PDone (file_of lines) /\
  forall parts, Permutation (concat parts) lines -> exists enough, forall fuel, enough <= fuel -> exists e es,
    lr_enum n m K2 allow false fuel = Done e /\
    Forall2 (fun part r => lr_enum_continue (file_of part) K2 allow false fuel = PDone r) parts es /\
    Permutation (f_halt e) (f_halt e1 ++ concat (map f_halt es)) /\
    Permutation (f_inf e) (f_inf e1 ++ concat (map f_inf es)) /\
    Permutation (f_unknown e) (concat (map f_unknown es)).
Proof.
  intros Hn Hm HK E1. assert (Hn2 : 2 <= n) by lia. assert (Hm2 : 2 <= m) by lia.
  destruct (like_1rb n m Hn2 Hm2) as (L0 & E0). destruct (cpp_runs n m (lr_bound K2) Hn2 Hm2 allow true _ L0 E0) as (nodes & Ln & Fn & _ & Nn & _).
  rewrite Forall_forall in Ln.
  destruct (two_phase (lb_expand (lr_bound K1) allow) (lb_expand (lr_bound K2) allow) (open_tm K1) _ _ Fn) as (n1 & n2 & F1 & F2 & I1 & P12).
  { intros j Hj Ho. now apply (expand_phase n m K1 K2 allow j Hn2 Hm2 HK (Ln _ Hj)). }
  { intros j Hj Ho. now apply (expand_phase n m K1 K2 allow j Hn2 Hm2 HK (Ln _ Hj)). }
  assert (L1 : forall tm, In tm n1 -> like n m tm) by (intros tm H; apply Ln, I1, H).
  assert (Run : forall K ns, forest (lb_expand (lr_bound K) allow) [lr_root n m true] ns -> (forall tm, In tm ns -> like n m tm) ->
    forall fuel, length ns <= fuel -> lr_enum n m K allow false fuel = Done (fold_left (fun s tm => lr_next false K tm s) ns lr_init)).
  { intros K ns Fo Hl fuel Hf. unfold lr_enum.
    apply (enumerate_forest _ allow (fun tm => lb_verdict (lr_bound K) (to_tab (c_trans tm))) (lr_next false K) (like n m)); auto.
    - intros tm s H. apply (lr_filter_spec n m); auto; lia.
    - now apply Forall_forall. }
  assert (Ee : e1 = fold_left (fun s tm => lr_next false K1 tm s) n1 lr_init).
  { pose proof (Run K1 n1 F1 L1 (Nat.max (length n1) fuel1) ltac:(lia)) as X. rewrite (lr_mono _ _ _ _ _ _ (Nat.max (length n1) fuel1) _ E1 ltac:(lia)) in X. congruence. }
  rewrite fold_lines in Ee. cbn [f_halt f_inf f_unknown lr_init app] in Ee. subst e1. cbn [f_halt f_inf f_unknown].
  set (tms := filter (open_tm K1) n1) in *.
  assert (Lt : forall tm, In tm tms -> like n m tm /\ In tm nodes).
  { intros tm H. apply filter_In in H. split; [apply L1, H|apply I1, H]. }
  exists (map tm_line tms). split; [apply (tms_text_lines n m); [lia|lia|intros tm H; apply (Lt tm H)]|].
  intros parts Pp. apply Permutation_map_inv in Pp. destruct Pp as (l3 & Ec & P3). destruct (map_concat_split _ _ _ Ec) as (ps & -> & Eps).
  destruct (forest_perm _ _ _ P3 _ F2) as (n2' & F2' & P2'). rewrite <- Eps in F2'. destruct (forest_parts _ _ _ F2') as (ns & Fns & Pns).
  assert (Pall : Permutation nodes (filter (fun j => negb (open_tm K1 j)) n1 ++ concat ns)).
  { rewrite P12. apply Permutation_app_head. rewrite P2'. now symmetry. }
  exists (length nodes). intros fuel Hf.
  exists (fold_left (fun s tm => lr_next false K2 tm s) nodes lr_init), (map (fun x => fold_left (fun s tm => lr_next false K2 tm s) x lr_init) ns).
  split; [apply Run; auto|]. split; [|rewrite fold_lines; cbn [f_halt f_inf f_unknown lr_init app]; rewrite !map_map].
  - assert (Lns : forall x, In x (concat ns) -> In x nodes) by (intros x Hx; apply (Permutation_in _ (Permutation_sym Pall)), in_app_iff; now right).
    assert (Len : length (concat ns) <= fuel) by (apply Permutation_length in Pall; rewrite app_length in Pall; lia).
    assert (Hps : forall tm, In tm (concat ps) -> read_cpp (tm_line tm) = PDone tm /\ ~ In newline (tm_line tm)).
    { intros tm H. rewrite Eps in H. apply (Permutation_in _ (Permutation_sym P3)) in H. destruct (Lt tm H) as (Hl & Hin). split.
      - pose proof (read_text_of n m (c_trans tm) [] ltac:(lia) ltac:(lia) (lk_wf _ _ _ Hl) (or_introl eq_refl)) as X. rewrite app_nil_r in X.
        unfold tm_line. rewrite X.
        assert (Hg : cpp_machine tm 0 0 = Go 1 R 1).
        { rewrite <- (machine_tab n m tm (lk_wf _ _ _ Hl)). pose proof (Nn _ Hin) as N. clear -N Hn2 Hm2. remember (to_tab (c_trans tm)) as tab. clear Heqtab tm.
          induction N as [tab E|tab k i j b t l tab' N IH Hh El Hin].
          - destruct (like_1rb n m Hn2 Hm2) as (L0 & E0). rewrite E0 in E. injection E as <-. rewrite (machine_tab n m _ (lk_wf _ _ _ L0)).
            unfold cpp_machine. cbn [child_tm empty_tm c_trans]. destruct n as [|n0]; [lia|]. destruct m as [|m0]; [lia|]. reflexivity.
          - destruct (P_Enumerate.node_tinv n m allow true tab ltac:(lia) ltac:(lia) N) as (a & c & Ht).
            assert (Hc : child n m allow tab tab') by (exists k, i, j, b, t, l; auto).
            destruct (child_spec n m a c allow tab tab' Ht Hc) as (h & x & w0 & d0 & w & d & q & Ex & Es & -> & _ & _ & _ & _ & _ & He & _).
            now apply He. }
        destruct (rect_cell n m (c_trans tm) 0 0 (proj1 (lk_wf _ _ _ Hl)) ltac:(lia) ltac:(lia)) as (x & Ex).
        rewrite <- (machine_tab n m tm (lk_wf _ _ _ Hl)), (table_to_tab _ _ _ _ _ _ (lk_wf _ _ _ Hl) Ex) in Hg.
        destruct (proj2 (lk_wf _ _ _ Hl) _ _ _ Ex) as [-> |(U & _)]; [discriminate|]. destruct x as [w d q u]. cbn in U, Hg. subst u.
        destruct q as [q|]; [|discriminate]. injection Hg as -> -> ->. rewrite (reread n m tm 0 0 1 R 1 Hn2 Hm2 Hl Ex ltac:(lia)). reflexivity.
      - intros H1. apply (text_ends n m) in H1; [discriminate|lia|lia|]. intros row Hr. apply (wf_rows _ _ _ (lk_wf _ _ _ Hl) row Hr). }
    clear -Fns Hps Lns Len Ln Hn2 Hm2. induction Fns as [|p x ps ns Fx Fns IH]; [constructor|]. cbn [map concat] in *. rewrite app_length in Len. constructor.
    + unfold lr_enum_continue.
      apply (from_file_forest _ allow (fun tm => lb_verdict (lr_bound K2) (to_tab (c_trans tm))) (lr_next false K2) (like n m) fuel) with (tms := p); auto.
      * intros tm s H. apply (lr_filter_spec n m); auto; lia.
      * assert (H : forall tm, In tm p -> read_cpp (tm_line tm) = PDone tm /\ ~ In newline (tm_line tm)) by (intros; apply Hps, in_app_iff; now left).
        clear -H. induction p as [|tm p IH]; [constructor|]. cbn [map]. constructor; [|apply IH; intros; apply H; now right].
        destruct (H tm (or_introl eq_refl)). auto.
      * apply Forall_forall. intros tm H. apply Ln, Lns, in_app_iff. now left.
      * lia.
      * apply file_of_length.
    + apply IH; [intros; apply Lns, in_app_iff; now right|lia|]. intros; apply Hps, in_app_iff; now right.
  - assert (A1 : forall l, (forall tm, In tm l -> like n m tm) -> flat_map (halt_line K1) l = flat_map (halt_line K2) (filter (fun j => negb (open_tm K1 j)) l) /\
      flat_map (inf_line K1) l = flat_map (inf_line K2) (filter (fun j => negb (open_tm K1 j)) l) /\
      filter (open_tm K2) (filter (fun j => negb (open_tm K1 j)) l) = []).
    { induction l as [|tm l IH]; intros H; [auto|]. destruct IH as (J1 & J2 & J3); [intros; apply H; now right|].
      destruct (expand_phase n m K1 K2 allow tm Hn2 Hm2 HK (H tm (or_introl eq_refl))) as (X1 & X2). cbn [flat_map filter].
      destruct (open_tm K1 tm) eqn:Eo; cbn [negb].
      - destruct (X2 eq_refl) as (_ & -> & ->). auto.
      - destruct (X1 eq_refl) as (_ & -> & -> & E2). cbn [flat_map filter]. rewrite E2, J1, J2. auto. }
    destruct (A1 n1 L1) as (B1 & B2 & B3). split; [|split].
    + rewrite (flat_map_perm _ _ _ Pall), flat_map_app, B1, flat_map_concat2. apply Permutation_app_head.
      apply Permutation_refl'. f_equal. apply map_ext. intros x. now rewrite fold_lines.
    + rewrite (flat_map_perm _ _ _ Pall), flat_map_app, B2, flat_map_concat2. apply Permutation_app_head.
      apply Permutation_refl'. f_equal. apply map_ext. intros x. now rewrite fold_lines.
    + rewrite (filter_perm _ _ _ Pall), filter_app, B3, filter_concat. cbn [app].
      apply Permutation_refl'. f_equal. apply map_ext. intros x. now rewrite fold_lines.
Qed.

(** shuffle_split.py is such a way of splitting. *)
Theorem C73_split lines shuffled num_chunks : 1 <= num_chunks -> Permutation shuffled lines ->
  length (shuffle_split shuffled num_chunks) = num_chunks /\ Permutation (concat (shuffle_split shuffled num_chunks)) lines.
Proof. intros H P. split; [unfold shuffle_split; now rewrite map_length, seq_length|]. rewrite split_concat; auto. Qed.

(** ** merge_steps_examples.py *)

Lemma put_keys k tm d j : In j (map fst (put_step k tm d)) <-> j = k \/ In j (map fst d).
Proof.
  induction d as [|(k', tm') d IH]; cbn [put_step map fst In]; [intuition|]. destruct (Nat.ltb_spec k k'); [cbn [map fst In]; intuition|].
  destruct (Nat.eqb_spec k k') as [-> |Hn]; cbn [map fst In]; [intuition|]. rewrite IH. intuition.
Qed.
Lemma put_sorted k tm d : StronglySorted lt (map fst d) -> StronglySorted lt (map fst (put_step k tm d)).
Proof.
  induction d as [|(k', tm') d IH]; cbn [put_step map fst]; intros H; [repeat constructor|].
  inversion H as [|? ? H1 H2]; subst. destruct (Nat.ltb_spec k k').
  - cbn [map fst]. constructor; auto. constructor; auto. eapply Forall_impl; [|exact H2]. intros a Ha. cbn in Ha. lia.
  - destruct (Nat.eqb_spec k k') as [-> |Hn]; cbn [map fst]; [auto|]. constructor; auto. apply Forall_forall. intros a Ha. apply put_keys in Ha.
    rewrite Forall_forall in H2. destruct Ha as [-> |Ha]; [lia|auto].
Qed.
Lemma merge_keys files : StronglySorted lt (map fst (merge_steps files)) /\ forall k, In k (map fst (merge_steps files)) <-> exists file tm, In file files /\ In (k, tm) file.
Proof.
  assert (X : forall l d, StronglySorted lt (map fst d) -> let d' := fold_left (fun d x => put_step (fst x) (snd x) d) l d in
    StronglySorted lt (map fst d') /\ forall k, In k (map fst d') <-> In k (map fst d) \/ In k (map fst l)).
  { induction l as [|x l IH]; intros d Hd; cbn [fold_left map In]; [split; [auto|intuition]|].
    destruct (IH (put_step (fst x) (snd x) d) (put_sorted _ _ _ Hd)) as (A & B). split; [exact A|]. intros k. rewrite B, put_keys. intuition. }
  destruct (X (concat files) [] ltac:(constructor)) as (A & B). split; [exact A|]. intros k. unfold merge_steps. rewrite B. cbn [map In]. split.
  - intros [[]|H]. apply in_map_iff in H. destruct H as ((k', tm) & E & H). cbn in E. subst k'. apply in_concat in H. destruct H as (file & Hf & H). eauto.
  - intros (file & tm & Hf & H). right. apply in_map_iff. exists (k, tm). split; [auto|]. apply in_concat. eauto.
Qed.

Lemma seq_sorted s n : StronglySorted lt (seq s n).
Proof. revert s. induction n as [|n IH]; intros s; cbn [seq]; constructor; auto. apply Forall_forall. intros a Ha. apply in_seq in Ha. lia. Qed.
Lemma sorted_app (a b : list nat) : StronglySorted lt a -> StronglySorted lt b -> (forall x y, In x a -> In y b -> x < y) -> StronglySorted lt (a ++ b).
Proof.
  induction a as [|x a IH]; intros Ha Hb H; [auto|]. inversion Ha as [|? ? H1 H2]; subst. cbn [app]. constructor.
  - apply IH; auto. intros; apply H; auto. now right.
  - apply Forall_app. split; [auto|]. apply Forall_forall. intros y Hy. apply H; auto. now left.
Qed.
Lemma holes_in d : StronglySorted lt (map fst d) -> StronglySorted lt (holes d) /\
  forall j, In j (holes d) <-> ~ In j (map fst d) /\ (exists a, In a (map fst d) /\ a < j) /\ (exists b, In b (map fst d) /\ j < b).
Proof.
  induction d as [|(x, t) d IH]; intros H.
  { split; [constructor|]. intros j. cbn. split; [intros []|intros (_ & (a & [] & _) & _)]. }
  cbn [map fst] in H. inversion H as [|? ? H1 H2]; subst. destruct (IH H1) as (S1 & I1). rewrite Forall_forall in H2. clear IH.
  destruct d as [|(y, t') d].
  { split; [constructor|]. intros j. cbn. split; [intros []|intros (_ & (a & [<-|[]] & Ha) & (b & [<-|[]] & Hb)); lia]. }
  cbn [holes] in S1, I1 |- *. set (h := match d with [] => [] | y0 :: _ => seq (S (fst (y, t'))) (fst y0 - S (fst (y, t'))) ++ holes d end) in *.
  change (map fst ((x, t) :: (y, t') :: d)) with (x :: map fst ((y, t') :: d)). set (ks := map fst ((y, t') :: d)) in *. cbn [fst].
  assert (Hy : x < y) by (apply H2; now left). assert (Hyk : In y ks) by now left.
  assert (Hm : forall a, In a ks -> y <= a).
  { intros a [<-|Ha]; [cbn; lia|]. inversion H1 as [|? ? _ H3]; subst. rewrite Forall_forall in H3. specialize (H3 a Ha). cbn in H3. lia. }
  split.
  - apply sorted_app; [apply seq_sorted|exact S1|]. intros a b Ha Hb. apply in_seq in Ha. apply I1 in Hb. destruct Hb as (_ & (c & Hc & Hlt) & _).
    specialize (Hm c Hc). lia.
  - intros j. rewrite in_app_iff, in_seq, I1. split.
    + intros [Hj|(Nj & (a & Ha & Hlt) & (b & Hb & Hgt))].
      * split; [|split; [exists x; split; [now left|lia]|exists y; split; [now right|lia]]]. intros [->|Hi]; [lia|]. specialize (Hm j Hi). lia.
      * split; [|split; [exists a; split; [now right|lia]|exists b; split; [now right|lia]]]. intros [->|Hi]; [|auto]. specialize (H2 a Ha). lia.
    + intros (Nj & (a & Ha & Hlt) & (b & Hb & Hgt)). assert (Hxj : x < j) by (destruct Ha as [->|Ha]; [lia|specialize (H2 a Ha); lia]).
      destruct (Nat.lt_ge_cases j y) as [Hjy|Hjy]; [left; lia|right]. split; [intros Hi; apply Nj; now right|]. split.
      * exists y. split; [auto|]. destruct (Nat.eq_dec j y) as [->|]; [|lia]. exfalso. apply Nj. now right.
      * destruct Hb as [->|Hb]; [lia|eauto].
Qed.

(** The numbers the script finds are those that no file has, between two that some file has; it counts each once and prints the smallest. *)
Theorem C73_holes files num : exists all, merge_holes num files = (firstn num all, length all) /\ StronglySorted lt all /\
  forall j, In j all <-> ~ (exists file tm, In file files /\ In (j, tm) file) /\
    (exists a file tm, In file files /\ In (a, tm) file /\ a < j) /\ (exists b file tm, In file files /\ In (b, tm) file /\ j < b).
Proof.
  destruct (merge_keys files) as (Hs & Hk). destruct (holes_in _ Hs) as (S1 & I1). exists (holes (merge_steps files)). split; [reflexivity|]. split; [exact S1|].
  intros j. rewrite I1, Hk. split; intros (A & (a & Ha & La) & (b & Hb & Lb)); (split; [exact A|]).
  - apply Hk in Ha. apply Hk in Hb. destruct Ha as (f1 & t1 & ? & ?), Hb as (f2 & t2 & ? & ?). split; [exists a, f1, t1|exists b, f2, t2]; auto.
  - destruct La as (t1 & ? & ? & ?), Lb as (t2 & ? & ? & ?). split; [exists a|exists b]; (split; [apply Hk; eauto|auto]).
Qed.

(** When the files together have the numbers of steps up to [K] with which some machine halts, the first number printed is the Lazy Beaver
    number, and it is printed as soon as a larger number is in a file. *)
Theorem C73_lazy_beaver n m K files num : 1 <= n -> 1 <= m -> 1 <= K -> 1 <= num ->
  (forall k, (exists file tm, In file files /\ In (k, tm) file) <-> k <= K /\ realizable n m k) ->
  (forall v rest, fst (merge_holes num files) = v :: rest -> lazy_beaver_number n m v) /\
  (forall v k, lazy_beaver_number n m v -> v < k <= K -> realizable n m k -> exists rest, fst (merge_holes num files) = v :: rest).
Proof.
  intros Hn Hm HK Hnum Hf. destruct (C73_holes files num) as (all & -> & Hs & Ha). cbn [fst].
  assert (R1 : realizable n m 1).
  { exists (fun _ _ => Stop 0 R true). split; [intros i j w d q Hi Hj E; discriminate|]. do 4 eexists. exists 0, initial, 0, R. repeat split. }
  assert (R0 : forall k, realizable n m k -> 1 <= k) by (intros k (M & _ & q & s & b & t & i & c & w & d & -> & _); lia).
  destruct num as [|num]; [lia|]. split.
  - destruct all as [|v0 all]; [discriminate|]. cbn [firstn]. intros v rest [= <- _]. destruct (proj1 (Ha v0) (or_introl eq_refl)) as (N & (a & f & t & Fa & Ta & La) & (b & f' & t' & Fb & Tb & Lb)).
    assert (Rb : b <= K /\ realizable n m b) by (apply Hf; eauto). assert (Ra : a <= K /\ realizable n m a) by (apply Hf; eauto).
    split; [lia|]. split; [intros R; apply N, Hf; split; [lia|auto]|]. intros i Hi.
    destruct (Nat.eq_dec i 1) as [->|]; [auto|].
    assert (X : {In i (map fst (merge_steps files))} + {~ In i (map fst (merge_steps files))}) by apply in_dec, Nat.eq_dec.
    destruct X as [X|X]; [apply merge_keys, Hf in X; apply X|]. exfalso.
    assert (In i (v0 :: all)).
    { apply Ha. split; [intros Y; apply X, merge_keys, Y|]. split; [|exists b, f', t'; repeat split; auto; lia].
      destruct (proj2 (Hf 1) (conj HK R1)) as (f1 & t1 & ? & ?). exists 1, f1, t1. repeat split; auto; lia. }
    inversion Hs as [|? ? _ H3]; subst. rewrite Forall_forall in H3. destruct H as [->|H]; [lia|]. specialize (H3 i H). lia.
  - intros v k (V1 & V2 & V3) Hk Rk.
    assert (In v all).
    { apply Ha. split; [intros Y; apply Hf in Y; apply V2, Y|]. split.
      - destruct (proj2 (Hf 1) (conj HK R1)) as (f1 & t1 & ? & ?). exists 1, f1, t1. repeat split; auto.
        destruct (Nat.eq_dec v 1) as [->|]; [now elim V2|lia].
      - destruct (proj2 (Hf k)) as (f1 & t1 & ? & ?); [split; [lia|auto]|]. exists k, f1, t1. repeat split; auto; lia. }
    destruct all as [|v0 all]; [destruct H|]. cbn [firstn]. destruct H as [->|H]; [eauto|]. exfalso.
    destruct (proj1 (Ha v0) (or_introl eq_refl)) as (N & (a & f & t & Fa & Ta & La) & _). inversion Hs as [|? ? _ H3]; subst. rewrite Forall_forall in H3. specialize (H3 v H).
    apply N, Hf. split; [lia|]. apply V3. lia.
Qed.

(** ** lb_enum *)

Definition running (K : nat) (tm : cpp_tm) : bool := match halt_steps K tm with Some _ => false | None => true end.

Lemma lb_phase K1 K2 allow tm : K1 <= K2 ->
  (running K1 tm = false -> lb_expand K1 allow tm = lb_expand K2 allow tm /\ halt_steps K1 tm = halt_steps K2 tm) /\
  (running K1 tm = true -> lb_expand K1 allow tm = []).
Proof.
  intros HK. unfold running, lb_expand, lb_verdict, halt_steps.
  destruct (stop_at (table_of (to_tab (c_trans tm))) K1 initial) as [r|] eqn:E; cbn [option_map].
  - rewrite (stop_at_mono _ _ _ _ _ E HK). split; [auto|discriminate].
  - split; [discriminate|auto].
Qed.

Lemma nonhalt_fold K nodes : forall e, lb_nonhalt (fold_left (fun s tm => lb_next K tm s) nodes e) = lb_nonhalt e ++ filter (running K) nodes.
Proof.
  induction nodes as [|tm nodes IH]; intros e; cbn [fold_left filter]; [now rewrite app_nil_r|]. rewrite IH.
  unfold lb_next, running at 2. destruct (halt_steps K tm) as [k|]; [destruct (existsb (Nat.eqb k) (lb_realized e)); reflexivity|].
  cbn [lb_nonhalt]. now rewrite <- app_assoc.
Qed.

Lemma lb_parallel n m K1 K2 fuel1 e1 printed : 2 <= n < 26 -> 2 <= m < 10 -> n <= K1 <= K2 -> lb_enum n m K1 fuel1 = Done (e1, printed) ->
  exists lines, tms_text (lb_nonhalt e1) = PDone (file_of lines) /\
  forall parts, Permutation (concat parts) lines -> exists enough, forall fuel, enough <= fuel -> exists es,
    Forall2 (fun part r => lb_enum_continue (file_of part) K2 fuel = PDone r) parts es /\
    (forall r, In r (e1 :: es) -> map fst (lb_witness r) = rev (lb_realized r)) /\
    forall k, In k (lb_realized e1) \/ (exists r, In r es /\ In k (lb_realized r)) <-> k <= K2 /\ realizable n m k.
Proof.
  intros Hn Hm HK E1. assert (Hn2 : 2 <= n) by lia. assert (Hm2 : 2 <= m) by lia.
  destruct (like_empty n m Hn2 Hm2) as (L0 & E0). destruct (cpp_runs n m K2 Hn2 Hm2 false false _ L0 E0) as (nodes & Ln & Fn & _).
  rewrite Forall_forall in Ln.
  destruct (two_phase (lb_expand K1 false) (lb_expand K2 false) (running K1) _ _ Fn) as (n1 & n2 & F1 & F2 & I1 & P12).
  { intros j _ Ho. now apply (lb_phase K1 K2 false j ltac:(lia)). }
  { intros j _ Ho. now apply (lb_phase K1 K2 false j ltac:(lia)). }
  assert (L1 : forall tm, In tm n1 -> like n m tm) by (intros tm H; apply Ln, I1, H).
  assert (Run : forall K ns, forest (lb_expand K false) [empty_tm n m] ns -> (forall tm, In tm ns -> like n m tm) ->
    forall fuel, length ns <= fuel -> exists v, lb_enum n m K fuel = Done (fold_left (fun s tm => lb_next K tm s) ns lb_init, v)).
  { intros K ns Fo Hl fuel Hf. unfold lb_enum.
    rewrite (enumerate_forest (lb_filter K) false (fun tm => lb_verdict K (to_tab (c_trans tm))) (lb_next K) (like n m)) with (nodes := ns); auto.
    - eexists. reflexivity.
    - intros tm s H. apply (lb_filter_wf n m); [lia|lia|apply H].
    - now apply Forall_forall. }
  assert (Ee : e1 = fold_left (fun s tm => lb_next K1 tm s) n1 lb_init).
  { destruct (Run K1 n1 F1 L1 (Nat.max (length n1) fuel1) ltac:(lia)) as (v & X).
    rewrite (lb_mono _ _ _ _ (Nat.max (length n1) fuel1) _ E1 ltac:(lia)) in X. congruence. }
  assert (Real : forall k, (exists tm, In tm nodes /\ halt_steps K2 tm = Some k) <-> k <= K2 /\ realizable n m k).
  { intros k. destruct (C69_lazy_beaver n m K2 Hn2 Hm2) as (enough & Hd). destruct (Hd (Nat.max enough (length nodes)) ltac:(lia)) as (e & pr & Er & Hr & _).
    destruct (Run K2 nodes Fn Ln (Nat.max enough (length nodes)) ltac:(lia)) as (v & X). rewrite Er in X. injection X as -> _.
    rewrite <- Hr. destruct (fold_lb K2 nodes lb_init (NoDup_nil _) eq_refl eq_refl) as (R1 & _). rewrite R1. cbn [lb_init lb_realized In]. intuition. }
  destruct (fold_lb K1 n1 lb_init (NoDup_nil _) eq_refl eq_refl) as (R1 & _ & R3 & _). cbv zeta in R1, R3. rewrite <- Ee in R1, R3.
  assert (Eu : lb_nonhalt e1 = filter (running K1) n1) by (rewrite Ee, nonhalt_fold; reflexivity). rewrite Eu. clear Eu Ee.
  set (tms := filter (running K1) n1) in *.
  assert (Lt : forall tm, In tm tms -> like n m tm /\ exists c, steps (table_of (to_tab (c_trans tm))) K1 initial = Some c).
  { intros tm H. apply filter_In in H. split; [apply L1, H|]. apply stop_at_none. destruct H as (_ & H). unfold running, halt_steps in H.
    destruct (stop_at (table_of (to_tab (c_trans tm))) K1 initial); [discriminate|reflexivity]. }
  exists (map tm_line tms). split; [apply (tms_text_lines n m); [lia|lia|intros tm H; apply (Lt tm H)]|].
  intros parts Pp. apply Permutation_map_inv in Pp. destruct Pp as (l3 & Ec & P3). destruct (map_concat_split _ _ _ Ec) as (ps & -> & Eps).
  destruct (forest_perm _ _ _ P3 _ F2) as (n2' & F2' & P2'). rewrite <- Eps in F2'. destruct (forest_parts _ _ _ F2') as (ns & Fns & Pns).
  assert (Pall : Permutation nodes (filter (fun j => negb (running K1 j)) n1 ++ concat ns)).
  { rewrite P12. apply Permutation_app_head. rewrite P2'. now symmetry. }
  assert (Hps : forall tm, In tm (concat ps) -> (read_cpp (tm_line tm) = PDone (again tm) /\ ~ In newline (tm_line tm)) /\
    (again tm = tm \/ lb_expand K2 false tm = [] /\ lb_expand K2 false (again tm) = [])).
  { intros tm H. rewrite Eps in H. apply (Permutation_in _ (Permutation_sym P3)) in H. destruct (Lt tm H) as (Hl & c & Es). split; [split|].
    - pose proof (read_text_of n m (c_trans tm) [] ltac:(lia) ltac:(lia) (lk_wf _ _ _ Hl) (or_introl eq_refl)) as X. rewrite app_nil_r in X.
      unfold tm_line. rewrite X. unfold again, table_tm. pose proof (proj1 (proj1 (lk_wf _ _ _ Hl))) as Hlen. destruct (c_trans tm); [simpl in Hlen; lia|reflexivity].
    - intros H1. apply (text_ends n m) in H1; [discriminate|lia|lia|]. intros row Hr. apply (wf_rows _ _ _ (lk_wf _ _ _ Hl) row Hr).
    - destruct (again_spec n m tm K1 c Hn2 Hm2 Hl ltac:(lia) Es) as [A|A]; [now left|right]. specialize (A K2). apply stop_at_none in A.
      unfold lb_expand, lb_verdict. rewrite again_trans, A. auto. }
  assert (Parts : exists ns', Forall2 (fun p x => forest (lb_expand K2 false) (map again p) x) ps ns' /\ Forall2 (fun x x' => map c_trans x' = map c_trans x) ns ns').
  { clear -Fns Hps. induction Fns as [|p x ps ns Fx Fns IH]; [exists []; split; constructor|]. cbn [concat] in Hps.
    destruct IH as (ns' & A & B); [intros; apply Hps, in_app_iff; now right|].
    destruct (forest_again _ _ _ Fx) as (x' & Fx' & Ex); [intros tm H; apply Hps, in_app_iff; now left|]. exists (x' :: ns'). split; constructor; auto. }
  destruct Parts as (ns' & Fns' & Same).
  exists (length nodes). intros fuel Hf. exists (map (fun x => fold_left (fun s tm => lb_next K2 tm s) x lb_init) ns').
  assert (Lns : forall x, In x (concat ns) -> In x nodes) by (intros x Hx; apply (Permutation_in _ (Permutation_sym Pall)), in_app_iff; now right).
  assert (Len : length (concat ns) <= fuel) by (apply Permutation_length in Pall; rewrite app_length in Pall; lia).
  split; [|split; [intros r [<-|Hr]; [exact R3|]; apply in_map_iff in Hr; destruct Hr as (x & <- & _);
    destruct (fold_lb K2 x lb_init (NoDup_nil _) eq_refl eq_refl) as (_ & _ & Q & _); exact Q|]].
  - clear -Fns' Same Hps Lns Len Ln Hn2 Hm2. revert ns Same Lns Len. induction Fns' as [|p x ps ns' Fx Fns' IH]; intros ns Same Lns Len; [constructor|].
    inversion Same as [|y ? ns0 ? Ey Same']; subst. cbn [map concat] in *. rewrite app_length in Len. constructor.
    + unfold lb_enum_continue.
      apply (from_file_forest _ false (fun tm => lb_verdict K2 (to_tab (c_trans tm))) (lb_next K2) (fun tm => wf_trans n m (c_trans tm)) fuel) with (tms := map again p); auto.
      * intros tm s H. apply (lb_filter_wf n m); auto; lia.
      * assert (H : forall tm, In tm p -> read_cpp (tm_line tm) = PDone (again tm) /\ ~ In newline (tm_line tm)) by (intros; apply Hps, in_app_iff; now left).
        clear -H. induction p as [|tm p IH]; [constructor|]. cbn [map]. constructor; [|apply IH; intros; apply H; now right].
        destruct (H tm (or_introl eq_refl)). auto.
      * apply Forall_forall. intros tm H. apply (in_map c_trans) in H. rewrite Ey in H. apply in_map_iff in H. destruct H as (tm' & <- & H).
        apply lk_wf, Ln, Lns, in_app_iff. now left.
      * apply (f_equal (@length _)) in Ey. rewrite !map_length in Ey. lia.
      * apply file_of_length.
    + apply IH with (ns := ns0); auto; [|intros; apply Lns, in_app_iff; now right|lia]. intros; apply Hps, in_app_iff; now right.
  - intros k. rewrite <- Real, R1. cbn [lb_init lb_realized In]. 
    assert (Q : (exists r, In r (map (fun x => fold_left (fun s tm => lb_next K2 tm s) x lb_init) ns') /\ In k (lb_realized r)) <->
      exists tm, In tm (concat ns) /\ halt_steps K2 tm = Some k).
    { assert (Hx : forall x x', map c_trans x' = map c_trans x -> (In k (lb_realized (fold_left (fun s tm => lb_next K2 tm s) x' lb_init)) <->
        exists tm, In tm x /\ halt_steps K2 tm = Some k)).
      { intros x x' Ex. destruct (fold_lb K2 x' lb_init (NoDup_nil _) eq_refl eq_refl) as (Q & _). rewrite Q. cbn [lb_init lb_realized In]. split.
        - intros [[]|(tm & Hin & Hh)]. apply (in_map c_trans) in Hin. rewrite Ex in Hin. apply in_map_iff in Hin. destruct Hin as (tm' & Et & Hin).
          exists tm'. split; [auto|]. unfold halt_steps in *. now rewrite Et.
        - intros (tm & Hin & Hh). right. apply (in_map c_trans) in Hin. rewrite <- Ex in Hin. apply in_map_iff in Hin. destruct Hin as (tm' & Et & Hin).
          exists tm'. split; [auto|]. unfold halt_steps in *. now rewrite Et. }
      clear -Same Hx. induction Same as [|x x' ns ns' Ex Same IH]; cbn [map concat In].
      - split; [intros (r & [] & _)|intros (tm & [] & _)].
      - specialize (Hx x x' Ex). split.
        + intros (r & [<-|Hr] & Hk); [apply Hx in Hk; destruct Hk as (tm & ? & ?); exists tm; rewrite in_app_iff; auto|].
          destruct (proj1 IH) as (tm & ? & ?); [eauto|]. exists tm. rewrite in_app_iff. auto.
        + intros (tm & Hin & Hh). apply in_app_iff in Hin. destruct Hin as [Hin|Hin].
          * eexists. split; [now left|]. apply Hx. eauto.
          * destruct (proj2 IH) as (r & ? & ?); [eauto|]. exists r. auto. }
    rewrite Q. split.
    + intros [[[]|(tm & Hin & Hh)]|(tm & Hin & Hh)]; [|exists tm; split; [apply Lns, Hin|exact Hh]]. exists tm. split; [apply I1, Hin|].
      destruct (lb_phase K1 K2 false tm ltac:(lia)) as (X & _). unfold running in X. rewrite Hh in X. symmetry. now apply X.
    + intros (tm & Hin & Hh). apply (Permutation_in _ Pall) in Hin. apply in_app_iff in Hin. destruct Hin as [Hin|Hin]; [left; right|right; eauto].
      apply filter_In in Hin. destruct Hin as (Hin & Hb). apply negb_true_iff in Hb. exists tm. split; [exact Hin|].
      destruct (lb_phase K1 K2 false tm ltac:(lia)) as (X & _). destruct (X Hb) as (_ & ->). exact Hh.
Qed.

Definition steps_file (e : lazy_beaver) : list (nat * str) := map (fun x => (fst x, tm_line (snd x))) (lb_witness e).

(** The numbers of steps in the files of the first enumeration and of the continued ones, whatever parts the machines left are split into, are those up to the larger limit
    with which some machine halts.  The
    script finds the Lazy Beaver number in these files. *)
Theorem C73_lb_parallel n m K1 K2 fuel1 e1 printed num : 2 <= n < 26 -> 2 <= m < 10 -> n <= K1 <= K2 -> 1 <= num -> lb_enum n m K1 fuel1 = Done (e1, printed) ->
  exists lines, tms_text (lb_nonhalt e1) = PDone (file_of lines) /\
  forall parts, Permutation (concat parts) lines -> exists enough, forall fuel, enough <= fuel -> exists es,
    Forall2 (fun part r => lb_enum_continue (file_of part) K2 fuel = PDone r) parts es /\
    let files := map steps_file (e1 :: es) in
    (forall k, (exists file tm, In file files /\ In (k, tm) file) <-> k <= K2 /\ realizable n m k) /\
    (forall v rest, fst (merge_holes num files) = v :: rest -> lazy_beaver_number n m v) /\
    (forall v k, lazy_beaver_number n m v -> v < k <= K2 -> realizable n m k -> exists rest, fst (merge_holes num files) = v :: rest).
Proof.
  intros Hn Hm HK Hnum E1. destruct (lb_parallel n m K1 K2 fuel1 e1 printed Hn Hm HK E1) as (lines & Et & H). exists lines. split; [exact Et|].
  intros parts Pp. destruct (H parts Pp) as (enough & H'). exists enough. intros fuel Hf. destruct (H' fuel Hf) as (es & F2 & Hw & Hr). exists es.
  split; [exact F2|]. intros files.
  assert (Hk : forall k, (exists file tm, In file files /\ In (k, tm) file) <-> k <= K2 /\ realizable n m k).
  { intros k. rewrite <- Hr.
    assert (X : forall r, In r (e1 :: es) -> ((exists tm, In (k, tm) (steps_file r)) <-> In k (lb_realized r))).
    { intros r Hin. rewrite in_rev, <- (Hw r Hin). unfold steps_file. split.
      - intros (tm & Hx). apply in_map_iff in Hx. destruct Hx as ((k', t) & [= -> _] & Hx). apply in_map_iff. exists (k, t). auto.
      - intros Hx. apply in_map_iff in Hx. destruct Hx as ((k', t) & Ek & Hx). cbn in Ek. subst k'. exists (tm_line t). apply in_map_iff. exists (k, t). auto. }
    split.
    - intros (file & tm & Hfile & Hx). apply in_map_iff in Hfile. destruct Hfile as (r & <- & Hin). assert (Y : In k (lb_realized r)) by (apply X; eauto).
      destruct Hin as [<-|Hin]; [now left|right; eauto].
    - intros [Y|(r & Hin & Y)].
      + apply (X e1 (or_introl eq_refl)) in Y. destruct Y as (tm & Y). exists (steps_file e1), tm. split; [now left|exact Y].
      + apply (X r (or_intror Hin)) in Y. destruct Y as (tm & Y). exists (steps_file r), tm. split; [apply in_map; now right|exact Y]. }
  split; [exact Hk|]. apply (C73_lazy_beaver n m K2); auto; lia.
Qed.

(** ** A case *)

(** With limit 4 the enumeration of the machines with two states and two symbols leaves 26 of 41; in three files they are settled with limit 12. *)
Example C73_lr_case : exists e1, lr_enum 2 2 4 false false 60 = Done e1 /\ length (f_halt e1) = 9 /\ length (f_inf e1) = 6 /\ length (f_unknown e1) = 26 /\
  map (fun part => match lr_enum_continue (file_of part) 12 false false 30 with PDone e => (length (f_halt e), length (f_inf e), length (f_unknown e)) | _ => (0, 0, 0) end)
    (shuffle_split (map tm_line (f_unknown e1)) 3) = [(1, 8, 0); (4, 4, 0); (1, 8, 0)].
Proof. eexists. split; [vm_compute; reflexivity|]. vm_compute. auto. Qed.
Example C73_lb_case : match lb_enum 2 2 4 200 with
  | Done (e1, None) => (lb_realized e1, length (lb_nonhalt e1),
      map (fun part => match lb_enum_continue (file_of part) 9 60 with PDone e => lb_realized e | _ => [] end) (shuffle_split (map tm_line (lb_nonhalt e1)) 3))
  | _ => ([], 0, [])
  end = ([4; 3; 2; 1], 49, [[6]; [5; 6]; [6]]).
Proof. vm_compute. reflexivity. Qed.
Example C73_merge_case : merge_holes 2 [[(1, []); (4, [])]; [(9, []); (2, [])]] = ([3; 5], 5).
Proof. reflexivity. Qed.

Print Assumptions C73_lr_parallel.
Print Assumptions C73_split.
Print Assumptions C73_holes.
Print Assumptions C73_lazy_beaver.
Print Assumptions C73_lb_parallel.
