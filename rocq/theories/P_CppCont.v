(** * Continuing an enumeration in C++: lemmas *)
Require Import ZArith List Lia Bool Arith Ascii Permutation.
From Verif Require Import Spec_TM Spec_Rename M_Turing_Machine M_IO M_Enum P_Quint P_IO P_Stream P_Macro P_Tree P_Queue P_Resume P_Count
  M_Cpp P_Cpp Prop_Cpp M_CppLR P_CppLR Prop_CppLR M_CppIO P_CppIO.
Import ListNotations.
Open Scope nat_scope.

(** ** two runs instead of one *)

Lemma two_phase {J} (e1 e2 : J -> list J) (stop : J -> bool) js nodes : forest e2 js nodes ->
  (forall j, In j nodes -> stop j = false -> e1 j = e2 j) -> (forall j, In j nodes -> stop j = true -> e1 j = []) ->
  exists nodes1 nodes2, forest e1 js nodes1 /\ forest e2 (filter stop nodes1) nodes2 /\ incl nodes1 nodes /\
    Permutation nodes (filter (fun j => negb (stop j)) nodes1 ++ nodes2).
Proof.
  induction 1 as [|j js a b Fa IHa Fb IHb]; intros H1 H2; [exists [], []; repeat constructor; intros ? []|].
  destruct IHb as (nb1 & nb2 & B1 & B2 & B3 & B4); [intros; apply H1; auto; right; apply in_app_iff; auto|intros; apply H2; auto; right; apply in_app_iff; auto|].
  destruct (stop j) eqn:Ej.
  - exists (j :: [] ++ nb1), (j :: a ++ nb2). split; [constructor; [rewrite H2; [constructor|now left|exact Ej]|exact B1]|].
    cbn [app filter]. rewrite Ej. cbn [negb]. split; [now constructor|]. split.
    + intros x [<-|H]; [now left|]. right. apply in_app_iff. right. now apply B3.
    + rewrite <- Permutation_middle. constructor. rewrite B4 at 1. rewrite !app_assoc. apply Permutation_app_tail, Permutation_app_comm.
  - destruct IHa as (na1 & na2 & A1 & A2 & A3 & A4); [intros; apply H1; auto; right; apply in_app_iff; auto|intros; apply H2; auto; right; apply in_app_iff; auto|].
    exists (j :: na1 ++ nb1), (na2 ++ nb2). split; [constructor; [rewrite H1; [exact A1|now left|exact Ej]|exact B1]|].
    cbn [filter]. rewrite Ej. cbn [negb]. rewrite !filter_app. split; [now apply forest_app|]. split.
    + intros x [<-|H]; [now left|]. right. apply in_app_iff. apply in_app_iff in H. destruct H; [left; now apply A3|right; now apply B3].
    + cbn [app]. constructor. rewrite A4, B4 at 1. rewrite <- !app_assoc. apply Permutation_app_head. rewrite !app_assoc.
      apply Permutation_app_tail, Permutation_app_comm.
Qed.

(** ** a machine that is read again *)

Lemma fold_max_list {A} (f : A -> nat) l : forall a, fold_left (fun k x => Nat.max k (f x)) l a = Nat.max a (list_max (map f l)).
Proof. induction l as [|x l IH]; intros a; cbn [fold_left map list_max fold_right]; [lia|]. rewrite IH. unfold list_max. lia. Qed.

Lemma list_prod_cons {A B} (a : A) l (r : list B) : list_prod (a :: l) r = map (fun y => (a, y)) r ++ list_prod l r.
Proof. reflexivity. Qed.

Lemma all_trans_concat n m tab : rect n m tab -> all_trans tab n m = Some (concat tab).
Proof.
  intros (Hl & Hr). unfold all_trans, grid. rewrite <- (otraverse_some (concat tab)). f_equal.
  assert (G : forall k t, (forall i, nth_error tab (k + i) = nth_error t i) -> (forall row, In row t -> length row = m) ->
    map (fun a => simple_trans tab (snd a) (SRun (fst a))) (list_prod (seq k (length t)) (seq 0 m)) = map Some (concat t)).
  { intros k t. revert k. induction t as [|row t IH]; intros k H1 H2; [reflexivity|]. cbn [length seq concat]. rewrite list_prod_cons, !map_app. f_equal.
    - rewrite map_map. cbn [fst snd]. pose proof (H1 0) as E0. rewrite Nat.add_0_r in E0. cbn [nth_error] in E0.
      rewrite <- (H2 row (or_introl eq_refl)). apply map_nth_seq. intros j x Ex. unfold simple_trans. unfold ttable, trans_row in *. rewrite E0. exact Ex.
    - apply IH; [|intros; apply H2; now right]. intros i. pose proof (H1 (S i)) as X. cbn [nth_error] in X. rewrite <- X. f_equal. lia. }
  rewrite <- Hl at 1. apply (G 0 tab); auto.
Qed.

Lemma concat_cells t : Forall2 (fun x y => exists i j, y = py_cell i j x) (concat t) (concat (to_tab t)).
Proof.
  unfold to_tab. unfold mapi at 1. generalize 0. induction t as [|row t IH]; intros k; [constructor|]. cbn [mapi_from concat].
  apply Forall2_app; [|apply IH]. unfold mapi. generalize 0. clear. induction row as [|x row IHr]; intros j; [constructor|]. cbn [mapi_from]. constructor; [eauto|apply IHr].
Qed.

Lemma reread_stats xs ts : Forall2 (fun x y => exists i j, y = py_cell i j x) xs ts ->
  (forall x, In x xs -> x = empty_trans \/ exists w d q, x = Lookup w d (SRun q) false) ->
  list_max (map (fun x => match lk_state x with SRun q => q | SHalt => 0 end) xs) = max_state_of ts /\
  (max_symbol_of ts <= list_max (map lk_symbol xs) <= Nat.max 1 (max_symbol_of ts)) /\
  length (filter (fun x => match lk_state x with SHalt => true | SRun _ => false end) xs) = num_undefined ts.
Proof.
  induction 1 as [|x y xs ts (i & j & ->) F IH]; intros H; [split; [reflexivity|split; [split; cbv; lia|reflexivity]]|].
  destruct IH as (I1 & I2 & I3); [intros; apply H; now right|].
  rewrite max_state_cons, max_symbol_cons, num_undefined_cons. cbn [map filter]. unfold list_max in *. cbn [fold_right].
  rewrite I1. destruct (H x (or_introl eq_refl)) as [-> |(w & d & q & ->)].
  - destruct (stats_empty i j) as (-> & -> & ->). cbn [empty_trans lk_state lk_symbol length]. rewrite I3. repeat split; lia.
  - unfold py_cell. cbn [lk_undecided lk_state lk_symbol lk_move]. destruct (stats_run i w d q) as (-> & -> & ->). rewrite I3. repeat split; lia.
Qed.

Lemma like_cells n m tm x : like n m tm -> In x (concat (c_trans tm)) -> x = empty_trans \/ exists w d q, x = Lookup w d (SRun q) false.
Proof.
  intros Hl Hx. apply in_concat in Hx. destruct Hx as (row & Hr & Hx). apply In_nth_error in Hr, Hx. destruct Hr as (i & Ei), Hx as (j & Ej).
  assert (E : cell (c_trans tm) i j = Some x) by (unfold cell; now rewrite Ei).
  destruct (lk_run _ _ _ Hl _ _ _ E) as [-> |(q & Eq)]; [now left|]. destruct (proj2 (lk_wf _ _ _ Hl) _ _ _ E) as [-> |(U & _)]; [now left|].
  right. destruct x as [w d s u]. cbn in *. subst. eauto.
Qed.

(** A machine of the enumeration is the same when it is read again, if a transition writes a symbol that is not blank. *)
Lemma reread n m tm i j w d q : 2 <= n -> 2 <= m -> like n m tm -> cell (c_trans tm) i j = Some (Lookup w d (SRun q) false) -> 1 <= w ->
  table_tm (c_trans tm) = Some tm.
Proof.
  intros Hn Hm Hl Ec Hw. pose proof Hl as [En Em W _ (ts & Ets & E1 & E2 & E3 & E4)].
  rewrite (all_trans_concat n m _ (rect_to_tab _ _ _ (proj1 W))) in Ets. injection Ets as Ets. 
  destruct (reread_stats _ _ (concat_cells (c_trans tm)) (fun x => like_cells n m tm x Hl)) as (S1 & S2 & S3). rewrite Ets in S1, S2, S3.
  assert (Hin : In (running_trans i w d q) ts).
  { rewrite <- Ets. pose proof (cell_to_tab (c_trans tm) i j) as Ex. rewrite Ec in Ex. cbn [option_map] in Ex. unfold cell in Ex.
    match type of Ex with match ?x with _ => _ end = _ => destruct x as [row|] eqn:Er; [|discriminate] end. apply in_concat. exists row.
    split; [exact (nth_error_In _ _ Er)|exact (nth_error_In _ _ Ex)]. }
  assert (Hs : 1 <= max_symbol_of ts).
  { apply in_split in Hin. destruct Hin as (t1 & t2 & ->). rewrite max_symbol_app, max_symbol_cons. destruct (stats_run i w d q) as (_ & -> & _). lia. }
  assert (Ha : a_trans_defined ts = true) by (apply existsb_exists; eexists; split; [exact Hin|reflexivity]).
  destruct W as ((Hl1 & Hl2) & _). unfold table_tm. destruct tm as [n' m' ms my lo h t]. cbn [c_states c_symbols c_max_state c_max_symbol c_left_ok c_halts c_trans] in *.
  destruct t as [|row t]; [simpl in Hl1; lia|]. rewrite !fold_max_list. unfold all_lookups. rewrite S1, S3, Hl1, (Hl2 row (or_introl eq_refl)).
  subst. rewrite Ha. f_equal. f_equal; lia.
Qed.

(** ** the detector with a larger limit *)

Lemma outer_mono tm K1 K2 : K1 <= K2 -> forall f1 f2 ref sim r, f1 <= f2 -> cpp_outer tm K1 f1 ref sim = Some r ->
  match r with LRNone _ _ => True | _ => cpp_outer tm K2 f2 ref sim = Some r end.
Proof.
  intros HK. induction f1 as [|f1 IH]; intros f2 ref sim r Hf E.
  - cbn [cpp_outer] in E. destruct (Nat.ltb (cs_steps sim) K1); [discriminate|]. injection E as <-. exact I.
  - cbn [cpp_outer] in E. destruct (Nat.ltb_spec (cs_steps sim) K1) as [Lt|]; [|injection E as <-; exact I].
    destruct f2 as [|f2]; [lia|]. cbn [cpp_outer]. destruct (Nat.ltb_spec (cs_steps sim) K2); [|lia].
    destruct (cpp_inner tm (cs_steps sim) sim _ _ sim) as [[s|s|s]|]; [injection E as <-; reflexivity|injection E as <-; reflexivity| |discriminate].
    apply IH; [lia|exact E].
Qed.
Lemma detect_mono tm K1 K2 r : K1 <= K2 -> lr_detect tm K1 = Some r ->
  match r with LRNone _ _ => True | _ => lr_detect tm K2 = Some r end.
Proof.
  intros HK. unfold lr_detect. destruct (cs_step tm cs_init) as [sim|]; [|discriminate]. now apply outer_mono.
Qed.

(** ** files *)

Lemma getline_line l rest : ~ In newline l -> getline (l ++ newline :: rest) = Some (l, rest).
Proof.
  intros H. assert (E : upto_newline (l ++ newline :: rest) = (l, rest)).
  { induction l as [|c l IH]; [reflexivity|]. cbn [app upto_newline]. destruct (Ascii.eqb_spec c newline) as [-> |_]; [elim H; now left|].
    rewrite IH; [reflexivity|]. intros X. apply H. now right. }
  unfold getline. rewrite E. destruct l; reflexivity.
Qed.
Definition tm_line (tm : cpp_tm) : str := trans_text (c_trans tm).
Lemma tms_text_lines n m tms : n < 26 -> m < 10 -> (forall tm, In tm tms -> like n m tm) -> tms_text tms = PDone (file_of (map tm_line tms)).
Proof.
  intros Hn Hm. induction tms as [|tm tms IH]; intros H; [reflexivity|]. cbn [tms_text]. pose proof (H tm (or_introl eq_refl)) as Hl.
  rewrite (write_wf n m tm); [|exact Hn|exact Hm|apply Hl|apply Hl|apply Hl]. rewrite IH by (intros; apply H; now right).
  unfold file_of. cbn [pbind map concat]. rewrite <- app_assoc. reflexivity.
Qed.
Lemma file_of_length lines : length lines <= length (file_of lines).
Proof. unfold file_of. induction lines as [|l lines IH]; [simpl; lia|]. cbn [map concat length]. rewrite !app_length. simpl. lia. Qed.

Lemma from_file_forest {F} (filter_tm : cpp_tm -> F -> option (option (nat * nat) * F)) allow decide next (P : cpp_tm -> Prop) fuel :
  (forall tm s, P tm -> filter_tm tm s = Some (decide tm, next tm s)) ->
  let ex := fun tm => match decide tm with Some last => rev (expand_cpp allow tm last) | None => [] end in
  forall lines tms, Forall2 (fun l tm => ~ In newline l /\ read_cpp l = PDone tm) lines tms ->
  forall nodes turns s, forest ex tms nodes -> Forall P nodes -> length nodes <= fuel -> length lines <= turns ->
  from_file (fun tm => cpp_enumerate filter_tm allow fuel [tm]) turns (file_of lines) s = PDone (fold_left (fun s tm => next tm s) nodes s).
Proof.
  intros H ex. induction 1 as [|l tm lines tms (Hl & El) F2 IH]; intros nodes turns s Fo HP Hf Ht.
  - inversion Fo; subst. destruct turns; reflexivity.
  - inversion Fo as [|? ? a b Fa Fb]; subst. cbn [length] in Hf, Ht. rewrite app_length in Hf. destruct turns as [|turns]; [lia|].
    inversion HP as [|? ? Ptm Pab]; subst. apply Forall_app in Pab. destruct Pab as (Pa & Pb).
    assert (Eg : getline (file_of (l :: lines)) = Some (l, file_of lines)).
    { unfold file_of. cbn [map concat]. rewrite <- app_assoc. cbn [app]. now apply getline_line. }
    cbn [from_file]. rewrite Eg, El. cbn [pbind].
    assert (F1 : forest ex [tm] (tm :: a ++ [])) by (constructor; [exact Fa|constructor]). rewrite app_nil_r in F1.
    rewrite (enumerate_forest filter_tm allow decide next P H _ _ fuel s F1); [|now constructor|cbn [length]; lia].
    cbn [of_outcome pbind fold_left]. rewrite (IH b turns); [|exact Fb|exact Pb|lia|lia]. now rewrite fold_left_app.
Qed.

Lemma map_concat_split {A B} (g : A -> B) : forall parts l, concat parts = map g l -> exists ps, parts = map (map g) ps /\ concat ps = l.
Proof.
  induction parts as [|p parts IH]; intros l E; [destruct l; [|discriminate]; exists []; auto|]. cbn [concat] in E. symmetry in E.
  apply map_eq_app in E. destruct E as (l1 & l2 & -> & <- & E2). destruct (IH l2 (eq_sym E2)) as (ps & -> & <-). exists (l1 :: ps). auto.
Qed.
Lemma forest_parts {J} (e : J -> list J) ps : forall nodes, forest e (concat ps) nodes -> exists ns, Forall2 (forest e) ps ns /\ Permutation (concat ns) nodes.
Proof.
  induction ps as [|p ps IH]; intros nodes F; cbn [concat] in F.
  - inversion F; subst. exists []. split; constructor.
  - destruct (forest_split _ _ _ _ F) as (b & c & Fb & Fc & Pm). destruct (IH c Fc) as (ns & F2 & P2). exists (b :: ns). split; [now constructor|].
    cbn [concat]. rewrite Pm. now apply Permutation_app_head.
Qed.

(** ** shuffle_split *)

Lemma round_div_bounds a b : 0 < b -> a / b <= round_div a b <= S (a / b).
Proof. intros Hb. unfold round_div. destruct (2 * (a mod b) <? b); [lia|]. destruct (b <? 2 * (a mod b)); [lia|]. destruct (Nat.even (a / b)); lia. Qed.
Lemma round_div_mono a a' b : 0 < b -> a <= a' -> round_div a b <= round_div a' b.
Proof.
  intros Hb Ha. pose proof (Nat.div_le_mono a a' b ltac:(lia) Ha) as Hd. destruct (Nat.eq_dec (a / b) (a' / b)) as [E|N].
  - unfold round_div. rewrite <- E. assert (Hm : a mod b <= a' mod b).
    { pose proof (Nat.div_mod a b ltac:(lia)). pose proof (Nat.div_mod a' b ltac:(lia)). rewrite <- E in *. lia. }
    destruct (Nat.ltb_spec (2 * (a mod b)) b), (Nat.ltb_spec (2 * (a' mod b)) b), (Nat.ltb_spec b (2 * (a mod b))), (Nat.ltb_spec b (2 * (a' mod b)));
      destruct (Nat.even (a / b)); lia.
  - pose proof (round_div_bounds a b Hb). pose proof (round_div_bounds a' b Hb). lia.
Qed.
Lemma round_div_exact k b : 0 < b -> round_div (k * b) b = k.
Proof. intros Hb. unfold round_div. rewrite Nat.mod_mul, Nat.div_mul by lia. destruct (Nat.ltb_spec (2 * 0) b); [reflexivity|lia]. Qed.

Lemma slices {A} (l : list A) (br : nat -> nat) : (forall i, br i <= br (S i)) -> br 0 = 0 ->
  forall N, concat (map (fun i => firstn (br (S i) - br i) (skipn (br i) l)) (seq 0 N)) = firstn (br N) l.
Proof.
  intros Hm H0. induction N as [|N IH]; [rewrite H0; reflexivity|].
  rewrite seq_S, map_app, concat_app, IH. cbn [map concat Nat.add]. rewrite app_nil_r.
  assert (G : forall (a b : nat) (x : list A), firstn a x ++ firstn b (skipn a x) = firstn (a + b) x).
  { clear. induction a as [|a IHa]; intros b x; [reflexivity|]. destruct x as [|y x]; [simpl; now rewrite firstn_nil|]. cbn [firstn skipn app Nat.add]. now rewrite IHa. }
  rewrite G. f_equal. specialize (Hm N). lia.
Qed.
Lemma split_concat (lines : list str) N : 1 <= N -> concat (shuffle_split lines N) = lines.
Proof.
  intros HN. unfold shuffle_split. rewrite (slices lines (fun i => round_div (length lines * i) N)).
  - rewrite round_div_exact by lia. apply firstn_all.
  - intros i. apply round_div_mono; [lia|nia].
  - rewrite Nat.mul_0_r. change 0 with (0 * N). apply round_div_exact. lia.
Qed.

(** ** lb_enum_continue *)

Lemma stop_at_mono T : forall k1 k2 c r, stop_at T k1 c = Some r -> k1 <= k2 -> stop_at T k2 c = Some r.
Proof.
  induction k1 as [|k1 IH]; intros k2 c r E H; [discriminate|]. destruct k2 as [|k2]; [lia|]. cbn [stop_at] in *.
  destruct (step T c) as [c'|]; [|exact E]. destruct (stop_at T k1 c') as [r'|] eqn:E'; [|discriminate].
  now rewrite (IH k2 c' r' E' ltac:(lia)).
Qed.

(** A machine that only writes blanks and makes as many steps as it has states never stops. *)
Lemma silent_runs n m T K c : 1 <= n -> 1 <= m -> in_range n m T -> (forall q w d q', q < n -> T q 0 = Go w d q' -> w = 0) ->
  n <= K -> steps T K initial = Some c -> forall k, exists c', steps T k initial = Some c'.
Proof.
  intros Hn Hm HT Hw HK E.
  assert (Below : forall j k d, k <= j -> steps T j initial = Some d -> exists d', steps T k initial = Some d').
  { intros j k d Hk X. replace j with (k + (j - k)) in X by lia. rewrite steps_add in X. destruct (steps T k initial); [eauto|discriminate]. }
  assert (Bl : forall k d, steps T k initial = Some d -> st d < n /\ forall z, tp d z = 0).
  { induction k as [|k IH]; intros d X; [injection X as <-; split; [exact Hn|reflexivity]|].
    rewrite steps_S in X. destruct (steps T k initial) as [d0|] eqn:E0; [|discriminate]. destruct (IH d0 eq_refl) as (B1 & B2).
    unfold step in X. rewrite B2 in X. destruct (T (st d0) 0) as [w dr q|] eqn:ET; [|discriminate]. injection X as <-. cbn [st tp].
    destruct (HT _ _ _ _ _ B1 Hm ET) as (_ & Hq). split; [exact Hq|]. intros z. rewrite (Hw _ _ _ _ B1 ET). unfold put. destruct (Z.eqb z (hd d0)); auto. }
  set (s := fun k => match steps T k initial with Some d => st d | None => 0 end).
  assert (Hs : forall k, s k < n) by (intros k; unfold s; destruct (steps T k initial) as [d|] eqn:Ed; [apply (Bl k d Ed)|lia]).
  assert (Rep : exists i j, i < j <= n /\ s i = s j).
  { destruct (existsb (fun x => (fst x <? snd x) && (s (fst x) =? s (snd x))) (list_prod (seq 0 (S n)) (seq 0 (S n)))) eqn:Ex.
    - apply existsb_exists in Ex. destruct Ex as ((i, j) & Hin & Hb). apply in_prod_iff in Hin. rewrite !in_seq in Hin. cbn [fst snd] in Hb.
      apply andb_true_iff in Hb. destruct Hb as (H1 & H2). apply Nat.ltb_lt in H1. apply Nat.eqb_eq in H2. exists i, j. split; [lia|auto].
    - exfalso. assert (Hne : forall i j, i < j <= n -> s i <> s j).
      { intros i j Hij He. assert (X : existsb (fun x => (fst x <? snd x) && (s (fst x) =? s (snd x))) (list_prod (seq 0 (S n)) (seq 0 (S n))) = true); [|congruence].
        apply existsb_exists. exists (i, j). split; [apply in_prod_iff; rewrite !in_seq; lia|]. cbn [fst snd]. apply andb_true_iff.
        split; [apply Nat.ltb_lt; lia|apply Nat.eqb_eq; auto]. }
      assert (Nd : NoDup (map s (seq 0 (S n)))).
      { assert (G : forall b a, a + b <= S n -> NoDup (map s (seq a b))).
        { induction b as [|b IH]; intros a Hab; cbn [seq map]; constructor; [|apply IH; lia]. intros Hin. apply in_map_iff in Hin.
          destruct Hin as (j & Hj & Hin). apply in_seq in Hin. apply (Hne a j); [lia|auto]. }
        apply G. lia. }
      apply (NoDup_incl_length (l' := seq 0 n)) in Nd; [rewrite map_length, !seq_length in Nd; lia|].
      intros x Hx. apply in_map_iff in Hx. destruct Hx as (k & <- & _). apply in_seq. specialize (Hs k). lia. }
  destruct Rep as (i & j & Hij & Hr).
  assert (G : forall k, exists d, steps T k initial = Some d /\ (j <= k -> s k = s (k - (j - i)))).
  { induction k as [|k (d & Ek & Hk)]; [exists initial; split; [reflexivity|lia]|].
    destruct (Nat.le_gt_cases (S k) j) as [Hle|Hgt].
    - destruct (Below K (S k) c ltac:(lia) E) as (d' & E'). exists d'. split; [exact E'|]. intros Hj. replace (S k) with j by lia. rewrite <- Hr. f_equal. lia.
    - specialize (Hk ltac:(lia)). destruct (Below k (S (k - (j - i))) d ltac:(lia) Ek) as (d2 & E2). pose proof E2 as E2'. rewrite steps_S in E2.
      destruct (steps T (k - (j - i)) initial) as [d1|] eqn:E1; [|discriminate]. destruct (Bl _ _ E1) as (_ & B1). destruct (Bl _ _ Ek) as (_ & B2).
      unfold s in Hk. rewrite Ek, E1 in Hk. unfold step in E2. rewrite B1 in E2. destruct (T (st d1) 0) as [w dr q|] eqn:ET; [|discriminate]. injection E2 as <-.
      assert (Es : exists d', steps T (S k) initial = Some d' /\ st d' = q).
      { rewrite steps_S, Ek. unfold step. rewrite B2, Hk, ET. eexists. split; reflexivity. }
      destruct Es as (d' & Es & Eq). exists d'. split; [exact Es|]. intros _. unfold s. rewrite Es. replace (S k - (j - i)) with (S (k - (j - i))) by lia.
      rewrite E2'. exact Eq. }
  intros k. destruct (G k) as (d & Ed & _). eauto.
Qed.

Lemma lb_filter_wf n m K tm e : 1 <= n -> 1 <= m -> wf_trans n m (c_trans tm) ->
  lb_filter K tm e = Some (lb_verdict K (to_tab (c_trans tm)), lb_next K tm e).
Proof.
  intros Hn Hm W. unfold lb_filter, cs_seek, lb_verdict, lb_next, halt_steps.
  destruct (turns_spec n m tm W (K - cs_steps cs_init) cs_init initial srel_init) as (s & -> & H).
  { simpl. lia. } { intros z. simpl. lia. }
  change (cs_steps cs_init) with 0 in *. rewrite Nat.sub_0_r in *.
  destruct (stop_at (table_of (to_tab (c_trans tm))) K initial) as [((i, q), a)|]; cbn [option_map fst snd].
  - destruct H as (H1 & H2 & H3). unfold cs_halted. rewrite H1, H2, H3. reflexivity.
  - destruct H as (c' & H1 & (H2 & _) & H3). unfold cs_halted. rewrite H2. reflexivity.
Qed.

(** the machine that is read from the line of a machine *)
Definition again (tm : cpp_tm) : cpp_tm := match table_tm (c_trans tm) with Some t => t | None => tm end.
Lemma again_trans tm : c_trans (again tm) = c_trans tm.
Proof. unfold again, table_tm. destruct (c_trans tm) eqn:E; [now rewrite E|reflexivity]. Qed.

(** Only a machine that never stops can be different when it is read again. *)
Lemma again_spec n m tm K c : 2 <= n -> 2 <= m -> like n m tm -> n <= K -> steps (table_of (to_tab (c_trans tm))) K initial = Some c ->
  again tm = tm \/ forall k, exists c', steps (table_of (to_tab (c_trans tm))) k initial = Some c'.
Proof.
  intros Hn Hm Hl HK E. pose proof (lk_wf _ _ _ Hl) as W.
  destruct (existsb (fun x => match lk_state x with SRun _ => negb (lk_symbol x =? 0) | SHalt => false end) (concat (c_trans tm))) eqn:Ex.
  - left. apply existsb_exists in Ex. destruct Ex as (x & Hin & Hb). destruct (like_cells n m tm x Hl Hin) as [-> |(w & d & q & ->)]; [discriminate|].
    cbn in Hb. apply negb_true_iff, Nat.eqb_neq in Hb. apply in_concat in Hin. destruct Hin as (row & Hr & Hx). apply In_nth_error in Hr, Hx.
    destruct Hr as (i & Ei), Hx as (j & Ej). unfold again. rewrite (reread n m tm i j w d q Hn Hm Hl); [reflexivity| |lia]. unfold cell. now rewrite Ei.
  - right. apply (silent_runs n m _ K c); auto; [lia|lia|now apply wf_in_range|]. intros q w d q' Hq ET.
    destruct (rect_cell n m (c_trans tm) q 0 (proj1 W) Hq ltac:(lia)) as (x & Ec). rewrite (table_to_tab _ _ _ _ _ _ W Ec) in ET.
    destruct (lk_state x) eqn:El; [|discriminate]. injection ET as <- <- <-.
    destruct (Nat.eq_dec (lk_symbol x) 0) as [|Hne]; [assumption|]. exfalso.
    assert (X : existsb (fun x => match lk_state x with SRun _ => negb (lk_symbol x =? 0) | SHalt => false end) (concat (c_trans tm)) = true); [|congruence].
    apply existsb_exists. exists x. split; [|rewrite El; now apply negb_true_iff, Nat.eqb_neq].
    unfold cell in Ec. destruct (nth_error (c_trans tm) q) as [row|] eqn:Er; [|discriminate]. apply in_concat. exists row.
    split; [exact (nth_error_In _ _ Er)|exact (nth_error_In _ _ Ec)].
Qed.

Lemma forest_again (ex : cpp_tm -> list cpp_tm) p nodes : forest ex p nodes ->
  (forall tm, In tm p -> again tm = tm \/ ex tm = [] /\ ex (again tm) = []) ->
  exists nodes', forest ex (map again p) nodes' /\ map c_trans nodes' = map c_trans nodes.
Proof.
  intros F. revert nodes F. induction p as [|tm p IH]; intros nodes F H.
  - inversion F; subst. exists []. split; [constructor|reflexivity].
  - inversion F as [|? ? a b Fa Fb]; subst. destruct (IH b Fb) as (b' & Fb' & Eb); [intros; apply H; now right|].
    cbn [map]. destruct (H tm (or_introl eq_refl)) as [-> |(E1 & E2)].
    + exists (tm :: a ++ b'). split; [now constructor|]. cbn [map]. now rewrite !map_app, Eb.
    + rewrite E1 in Fa. inversion Fa; subst. exists (again tm :: [] ++ b'). split; [constructor; [rewrite E2; constructor|exact Fb']|].
      cbn [map app]. now rewrite again_trans, Eb.
Qed.
