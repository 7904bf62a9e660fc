(** * Enumerations that go on from the undecided records of a file *)
Require Import ZArith List Lia Bool Arith Permutation.
From Verif Require Import Spec_TM Spec_Rename M_Turing_Machine M_Direct M_Tape M_Simulator M_Settings M_Filters M_IO M_Enum M_Pipeline M_Enumerate M_Resume
  P_Macro P_Quint P_IO P_Tree P_Complete P_Complete2 P_Unique P_TNF2 P_Queue P_EnumTree P_Enumerate Prop_LinRecur Prop_IO Prop_Enum Prop_Count Prop_Pipeline Prop_Enumerate.
Import ListNotations.
Open Scope nat_scope.

Lemma perm_filter {A} (f : A -> bool) x y : Permutation x y -> Permutation (filter f x) (filter f y).
Proof.
  induction 1; cbn [filter]; try constructor; auto.
  - destruct (f x); auto.
  - destruct (f x), (f y); auto. constructor.
  - etransitivity; eauto.
Qed.
Lemma perm_split {A} (f : A -> bool) x : Permutation x (filter f x ++ filter (fun a => negb (f a)) x).
Proof.
  induction x as [|a x IH]; cbn [filter]; [constructor|]. destruct (f a); cbn [negb app]; [now constructor|].
  etransitivity; [|apply Permutation_middle]. now constructor.
Qed.
Lemma concat_map_app {A B} (f : A -> list B) x y : concat (map f (x ++ y)) = concat (map f x) ++ concat (map f y).
Proof. now rewrite map_app, concat_app. Qed.
Lemma perm_concat_map {A B} (f : A -> list B) x y : Permutation x y -> Permutation (concat (map f x)) (concat (map f y)).
Proof.
  induction 1; cbn [map concat]; auto.
  - now apply Permutation_app_head.
  - rewrite !app_assoc. apply Permutation_app_tail, Permutation_app_comm.
  - etransitivity; eauto.
Qed.

(** ** a queue of jobs that carry more than the table *)
Section Map.
  Context {J J' Rec : Type} (f : J -> J') (g : J' -> J).
  Variables (expand : J -> list J) (written unrun : J -> Rec) (shuffle : nat -> list J -> list J).
  Variables (expand' : J' -> list J') (written' unrun' : J' -> Rec) (shuffle' : nat -> list J' -> list J').
  Hypothesis GF : forall j, g (f j) = j.
  Hypothesis HE : forall j, expand' (f j) = map f (expand j).
  Hypothesis HW : forall j, written' (f j) = written j.
  Hypothesis HU : forall j, unrun' (f j) = unrun j.
  Hypothesis SH' : forall k l, Permutation (shuffle' k l) l.
  Hypothesis HS : forall k l, shuffle k l = map g (shuffle' k (map f l)).

  Lemma pulled_shuffle k l : Permutation (shuffle k l) l /\ map f (shuffle k l) = shuffle' k (map f l).
  Proof.
    rewrite HS. assert (GM : map g (map f l) = l) by (rewrite map_map; rewrite (map_ext _ (fun j => j)) by apply GF; apply map_id). split.
    - rewrite <- GM at 2. apply Permutation_map, SH'.
    - rewrite map_map. rewrite (map_ext_in _ (fun j => j)); [apply map_id|]. intros j Hj.
      apply (Permutation_in _ (SH' k (map f l))), in_map_iff in Hj. destruct Hj as (x & <- & _). now rewrite GF.
  Qed.
  Lemma pop_map d q : pop_job J' d (map f q) = option_map (fun jq => (f (fst jq), map f (snd jq))) (pop_job J d q).
  Proof.
    destruct d; cbn [pop_job].
    - rewrite <- map_rev. destruct (rev q) as [|j r]; cbn [map]; [reflexivity|]. cbn. now rewrite map_rev.
    - destruct q; reflexivity.
  Qed.
  Lemma drain_map d fuel : forall k q out, drain J' Rec unrun' d fuel k (map f q) out = drain J Rec unrun d fuel k q out.
  Proof.
    induction fuel as [|fuel IH]; intros k q out; [reflexivity|]. cbn [drain]. rewrite pop_map.
    destruct (pop_job J d q) as [[j r]|]; cbn [option_map fst snd]; [|reflexivity]. now rewrite HU, IH.
  Qed.
  Definition lift (r : nat * list J * list Rec) : nat * list J' * list Rec := (fst (fst r), map f (snd (fst r)), snd r).
  Lemma loop_map d limit fuel : forall k q out,
    enum_loop J' Rec expand' written' shuffle' d limit fuel k (map f q) out = option_map lift (enum_loop J Rec expand written shuffle d limit fuel k q out).
  Proof.
    induction fuel as [|fuel IH]; intros k q out; cbn [enum_loop];
      (destruct (match limit with Some x => x <=? k | None => false end); [reflexivity|]); rewrite pop_map;
      destruct (pop_job J d q) as [[j r]|]; cbn [option_map fst snd]; try reflexivity.
    rewrite HW, HE, <- (proj2 (pulled_shuffle k (expand j))), <- map_app. apply IH.
  Qed.
  Lemma main_map d num fuel : forall inputs k q out,
    enum_main J' Rec expand' written' unrun' shuffle' d num fuel k (map f inputs) (map f q) out =
    option_map lift (enum_main J Rec expand written unrun shuffle d num fuel k inputs q out).
  Proof.
    induction inputs as [|j inputs IH]; intros k q out; cbn [enum_main map]; [reflexivity|]. unfold continue_enum.
    change [f j] with (map f [j]). rewrite <- map_app, loop_map.
    destruct (enum_loop J Rec expand written shuffle d _ fuel k (q ++ [j]) out) as [((k1, q1), o1)|]; cbn [option_map lift fst snd]; [|reflexivity].
    destruct (num =? 0); cbv iota beta zeta; [apply IH|]. rewrite map_length, drain_map. destruct (drain J Rec unrun d _ k1 q1 o1) as (k2, o2).
    change (@nil J') with (map f []). apply IH.
  Qed.
End Map.

(** ** forests *)
Lemma forest_flat {J} (e : J -> list J) js nodes : forest e js nodes -> exists below, forest e (concat (map e js)) below /\ Permutation nodes (js ++ below).
Proof.
  induction 1 as [|j js a b F1 IH1 F2 IH2]; [exists []; split; constructor|]. destruct IH2 as (y & Fy & P). exists (a ++ y). split.
  - cbn [map concat]. now apply forest_app.
  - cbn [app]. constructor. rewrite P. rewrite !app_assoc. apply Permutation_app_tail, Permutation_app_comm.
Qed.
Lemma forest_perm_nodes {J} (e : J -> list J) x y a b : Permutation x y -> forest e x a -> forest e y b -> Permutation a b.
Proof. intros P F G. destruct (forest_perm e x y P a F) as (b' & F' & P'). now rewrite (forest_fun e _ _ G _ F'). Qed.
(** the jobs that were run and those below the ones left over are all there are *)
Lemma balance_forest {J} (e : J -> list J) inputs ran left nodes all rest :
  Permutation (inputs ++ concat (map e ran)) (ran ++ left) ->
  forest e inputs nodes -> forest e ran all -> forest e left rest -> Permutation nodes (ran ++ rest).
Proof.
  intros B F1 F2 F3. destruct (forest_flat _ _ _ F2) as (below & F4 & P).
  pose proof (forest_perm_nodes e _ _ _ _ B (forest_app e _ _ _ _ F1 F4) (forest_app e _ _ _ _ F2 F3)) as Q.
  apply (Permutation_app_inv_r below). rewrite Q, P, <- !app_assoc. apply Permutation_app_head, Permutation_app_comm.
Qed.
Lemma forest_balance {J} (e : J -> list J) js nodes : forest e js nodes -> Permutation (js ++ concat (map e nodes)) nodes.
Proof.
  induction 1 as [|j js a b F1 IH1 F2 IH2]; [constructor|]. cbn [map concat app]. constructor. rewrite concat_map_app.
  rewrite Permutation_app_comm, <- !app_assoc. rewrite app_assoc.
  etransitivity; [apply Permutation_app; [exact IH1|]|apply Permutation_app_head, IH2]. apply Permutation_app_comm.
Qed.
Lemma forest_all {J} (e : J -> list J) (P : J -> Prop) js nodes : forest e js nodes ->
  (forall j, In j js -> P j) -> (forall j i, P j -> In i (e j) -> P i) -> forall j, In j nodes -> P j.
Proof.
  induction 1 as [|j js a b F1 IH1 F2 IH2]; intros H1 H2 x Hx; [destruct Hx|]. destruct Hx as [<-|Hx]; [apply H1; simpl; auto|].
  apply in_app_iff in Hx. destruct Hx as [Hx|Hx]; [apply IH1; auto; intros; apply (H2 j); auto; apply H1; simpl; auto|].
  apply IH2; auto. intros. apply H1. simpl; auto.
Qed.

(** ** one stage after the other *)
Section Stages.
  Variables (n m : nat) (first : bool) (root : ttable).
  Hypothesis Hn : 0 < n <= 7.
  Hypothesis Hm : 1 < m <= 7.
  Hypothesis Hroot : blank_tm_enum n m first = Some root.
  Notation is_node := (node n m false first).
  Notation expand stat := (expand_job n m false stat).
  Notation rec stat := (record_of n m stat).
  Notation unrun := (unrun_record n m).
  Definition truthful (stat : ttable -> status) : Prop := forall tab, std_table n m tab -> status_true True (table_of tab) (stat tab).

  Lemma expand_is_node stat x y : truthful stat -> is_node x -> In y (expand stat x) -> is_node y.
  Proof.
    intros T Hx. unfold expand_job. destruct (halt_cell stat x) as [(i, j)|] eqn:E; [|intros []].
    destruct (cell_sound n m stat T x i j (node_std n m false Hn Hm first x Hx) E) as (k & sc & e & t & _ & _ & _ & Hh & _).
    destruct (enum_children x n m false i j) as [l|] eqn:El; [|intros []]. intros Hy. eapply node_child; eauto.
  Qed.
  Lemma trees stat inputs : truthful stat -> (forall x, In x inputs -> is_node x) ->
    exists nodes, forest (expand stat) inputs nodes /\ forall x, In x nodes -> is_node x.
  Proof.
    intros T H. assert (F : exists nodes, forest (expand stat) inputs nodes).
    { apply forest_of. intros x Hx. specialize (H x Hx).
      destruct (node_tinv n m false first x ltac:(lia) ltac:(lia) H) as (a & c & Hi).
      destruct (all_trans_total n m x (ti_rect _ _ _ _ _ Hi)) as (ts & Ets).
      destruct (tree_finite n m false (safe_cell n m stat) a c x _ ts (safe_sound n m stat T) Hi Ets (le_n _)) as (nodes & F).
      exists nodes. assert (EE : forall y, is_node y -> expand_tm n m false (safe_cell n m stat) y = expand stat y).
      { intros y Hy. unfold expand_tm, expand_job, safe_cell. destruct (std_table_dec n m y) as [|N]; [reflexivity|].
        destruct N. exact (node_std n m false Hn Hm first y Hy). }
      rewrite EE in F by exact H. apply (forest_ext _ _ _ _ F). intros y Hy. apply EE.
      destruct (forest_desc n m false (safe_cell n m stat) (safe_sound n m stat T) _ _ F y Hy) as (z & Hz & D).
      pose proof (expand_is_node stat x z T H Hz) as Nz. clear -D Nz.
      induction D as [tab|tab tab1 tab2 (k & i & j & b & t & l & Hh & El & Hin) _ IH]; auto. apply IH. eapply node_child; eauto. }
    destruct F as (nodes & F). exists nodes. split; [exact F|]. apply (forest_all _ is_node _ _ F H). intros j i. now apply expand_is_node.
  Qed.

  (** what there is after some stages: machines that were run, each with the status it was given when it was
      run last, and machines that were not *)
  Definition staged (file : list (proto_tm * status)) (stat : ttable -> status) (ran left : list ttable) : Prop :=
    truthful stat /\ (forall x, In x (ran ++ left) -> is_node x) /\
    Permutation ([root] ++ concat (map (expand stat) ran)) (ran ++ left) /\
    Permutation (map Some file) (map (rec stat) ran ++ map unrun left).

  Lemma staged_tree file stat ran left : staged file stat ran left ->
    exists nodes rest, forest (expand stat) [root] nodes /\ NoDup nodes /\ (forall x, In x nodes -> is_node x) /\
      forest (expand stat) left rest /\ Permutation nodes (ran ++ rest) /\ NoDup (ran ++ left).
  Proof.
    intros (T & N & B & _). destruct (the_tree n m false stat Hn Hm T first root Hroot) as (nodes & F & ND & HN).
    destruct (trees stat ran T) as (all & F2 & _); [intros; apply N, in_app_iff; auto|].
    destruct (trees stat left T) as (rest & F3 & _); [intros; apply N, in_app_iff; auto|].
    pose proof (balance_forest _ _ _ _ _ _ _ B F F2 F3) as P. exists nodes, rest. do 5 (split; [assumption|]).
    assert (ND' : NoDup (ran ++ rest)) by (eapply Permutation_NoDup; eauto).
    destruct (NoDup_app_inv' _ _ ND') as (A1 & A2 & A3). destruct (forest_roots _ _ _ F3 A2) as (L1 & L2).
    apply NoDup_app_intro; auto. intros a Ha Hb. exact (A3 a Ha (L2 a Hb)).
  Qed.

  (** one run *)
  Lemma stage_run stat inputs shuffle d num rounds cnt q out : truthful stat -> (forall x, In x inputs -> is_node x) ->
    (forall k l, Permutation (shuffle k l) l) ->
    enum_main ttable _ (expand stat) (rec stat) unrun shuffle d num rounds 0 inputs [] [] = Some (cnt, q, out) ->
    exists ran left nodes, Permutation (inputs ++ concat (map (expand stat) ran)) (ran ++ left) /\
      Permutation out (map (rec stat) ran ++ map unrun left) /\ (num = 0 -> left = []) /\ q = [] /\ cnt = length ran + length left /\
      forest (expand stat) inputs nodes /\ incl ran nodes /\ forall x, In x (ran ++ left) -> is_node x.
  Proof.
    intros T N SH E. destruct (trees stat inputs T N) as (nodes & F & HN). destruct (Nat.eq_dec num 0) as [->|N0].
    - exists nodes, [], nodes.
      destruct (C44_all_once (expand stat) (rec stat) unrun shuffle d inputs nodes SH F (length nodes + rounds) ltac:(lia)) as (out' & E' & P).
      pose proof (main_mono (expand stat) (rec stat) unrun shuffle d 0 rounds _ _ _ _ _ (length nodes + rounds) ltac:(lia) E) as E2.
      rewrite E' in E2. injection E2 as <- <- <-. rewrite !app_nil_r. cbn [length map]. rewrite ?app_nil_r.
      split; [now apply forest_balance|]. split; [exact P|]. split; [auto|]. split; [auto|]. split; [lia|]. split; [exact F|]. split; [apply incl_refl|exact HN].
    - destruct (C44_limit (expand stat) (rec stat) unrun shuffle d num inputs (num + rounds) SH ltac:(lia) ltac:(lia))
        as (ran & left & out' & E' & P1 & P2 & _ & _ & Q).
      pose proof (main_mono (expand stat) (rec stat) unrun shuffle d num rounds _ _ _ _ _ (num + rounds) ltac:(lia) E) as E2.
      rewrite E' in E2. injection E2 as <- <- <-. destruct (Q nodes F) as (rest & F' & P3). exists ran, left, nodes.
      split; [exact P1|]. split; [exact P2|]. split; [contradiction|]. do 2 (split; [reflexivity|]). split; [exact F|].
      assert (I : incl ran nodes) by (intros x Hx; apply (Permutation_in _ (Permutation_sym P3)), in_app_iff; auto).
      split; [exact I|]. intros x Hx. apply HN, (Permutation_in _ (Permutation_sym P3)), in_app_iff. apply in_app_iff in Hx.
      destruct Hx as [Hx|Hx]; [auto|right]. eapply forest_In_self; eauto.
  Qed.

  Definition tab_dec (x y : ttable) : {x = y} + {x <> y} := list_eq_dec (list_eq_dec trans_dec) x y.
  Definition decided_as (stat : ttable -> status) (x : ttable) : bool := match stat x with Unknown => false | _ => true end.

  Lemma rec_node stat x : truthful stat -> is_node x -> exists p, rec stat x = Some (p, stat x).
  Proof. intros T H. destruct (rec_shape n m false stat Hn Hm T first x H) as (b & E & _). eauto. Qed.
  Lemma unrun_node x : is_node x -> exists p, unrun x = Some (p, Unknown) /\ write_tm x n m = Some p /\ read_tm p = Some (x, n, m).
  Proof.
    intros H. destruct (write_std n m Hn Hm x (node_std n m false Hn Hm first x H)) as (b & E1 & E2). exists (Packed b).
    unfold unrun_record. rewrite E1. auto.
  Qed.
  Lemma rec_unknown stat x : stat x = Unknown -> rec stat x = unrun x.
  Proof. intros E. unfold record_of, unrun_record. now rewrite E. Qed.
  Lemma expand_unknown stat x : stat x = Unknown -> expand stat x = [].
  Proof. intros E. unfold expand_job, halt_cell. now rewrite E. Qed.

  (** the records of a file that are taken up again, and those that are not *)
  Definition left_open (r : option (proto_tm * status)) : bool := match r with Some r => undecided r | None => false end.
  Lemma filter_Some (f : option (proto_tm * status) -> bool) file : filter f (map Some file) = map Some (filter (fun r => f (Some r)) file).
  Proof. induction file as [|r file IH]; cbn [map filter]; [reflexivity|]. destruct (f (Some r)); cbn [map]; now rewrite IH. Qed.
  Lemma filter_rec stat ran : truthful stat -> (forall x, In x ran -> is_node x) ->
    filter left_open (map (rec stat) ran) = map unrun (filter (fun x => negb (decided_as stat x)) ran) /\
    filter (fun r => negb (left_open r)) (map (rec stat) ran) = map (rec stat) (filter (decided_as stat) ran).
  Proof.
    intros T. induction ran as [|x ran IH]; intros N; [split; reflexivity|]. destruct IH as (I1 & I2); [intros; apply N; simpl; auto|].
    cbn [map filter]. destruct (rec_node stat x T) as (p & E); [apply N; simpl; auto|].
    assert (L : left_open (rec stat x) = negb (decided_as stat x)).
    { rewrite E. unfold left_open, undecided, decided_as. cbn [snd]. now destruct (stat x). }
    rewrite L. destruct (decided_as stat x) eqn:D; cbn [negb map]; rewrite I1, I2; [auto|]. split; [|reflexivity]. f_equal.
    apply rec_unknown. unfold decided_as in D. now destruct (stat x).
  Qed.
  Lemma filter_unrun left : (forall x, In x left -> is_node x) ->
    filter left_open (map unrun left) = map unrun left /\ filter (fun r => negb (left_open r)) (map unrun left) = [].
  Proof.
    induction left as [|x left IH]; intros N; [split; reflexivity|]. destruct IH as (I1 & I2); [intros; apply N; simpl; auto|].
    cbn [map filter]. destruct (unrun_node x) as (p & E & _); [apply N; simpl; auto|]. rewrite E. cbn [left_open undecided snd negb].
    rewrite I1, I2. auto.
  Qed.
  Lemma staged_split file stat ran left : staged file stat ran left ->
    Permutation (map Some (filter undecided file)) (map unrun (filter (fun x => negb (decided_as stat x)) ran ++ left)) /\
    Permutation (map Some (filter (fun r => negb (undecided r)) file)) (map (rec stat) (filter (decided_as stat) ran)).
  Proof.
    intros (T & N & _ & P). destruct (filter_rec stat ran T) as (A1 & A2); [intros; apply N, in_app_iff; auto|].
    destruct (filter_unrun left) as (B1 & B2); [intros; apply N, in_app_iff; auto|]. split.
    - change undecided with (fun r => left_open (Some r)). rewrite <- filter_Some, (perm_filter _ _ _ P), filter_app, A1, B1, map_app. reflexivity.
    - change (fun r => negb (undecided r)) with (fun r => negb (left_open (Some r))). rewrite <- (filter_Some (fun r => negb (left_open r))).
      rewrite (perm_filter _ _ _ P), filter_app, A2, B2, app_nil_r. reflexivity.
  Qed.

  (** some of the undecided records are taken up again *)
  Lemma staged_take file stat ran left infile kept : staged file stat ran left ->
    Permutation file (infile ++ kept) -> (forall r, In r infile -> undecided r = true) ->
    exists tabs keep, map Some infile = map unrun tabs /\
      Permutation (tabs ++ keep) (filter (fun x => negb (decided_as stat x)) ran ++ left) /\
      Permutation (map Some kept) (map (rec stat) (filter (decided_as stat) ran) ++ map unrun keep).
  Proof.
    intros S P U. destruct (staged_split file stat ran left S) as (P1 & P2).
    assert (FU : filter undecided infile = infile /\ filter (fun r => negb (undecided r)) infile = []).
    { clear -U. induction infile as [|r infile IH]; [split; reflexivity|]. destruct IH as (I1 & I2); [intros; apply U; simpl; auto|].
      cbn [filter]. rewrite (U r) by (simpl; auto). cbn [negb]. now rewrite I1, I2. }
    destruct FU as (FU & FN).
    rewrite (Permutation_map Some (perm_filter undecided _ _ P)), filter_app, FU in P1.
    rewrite (Permutation_map Some (perm_filter (fun r => negb (undecided r)) _ _ P)), filter_app, FN in P2. cbn [app] in P2.
    destruct (Permutation_map_inv _ _ P1) as (l & El & Pl).
    rewrite map_app in El. symmetry in El. apply map_eq_app in El. destruct El as (tabs & keep & -> & E1 & E2). exists tabs, keep.
    split; [auto|]. split; [now symmetry|]. rewrite (Permutation_map Some (perm_split undecided kept)), map_app, P2, <- E2. apply Permutation_app_comm.
  Qed.
  Lemma next_stage file stat ran left stat2 tabs keep kept ran2 left2 nodes2 new :
    staged file stat ran left -> truthful stat2 ->
    Permutation (tabs ++ keep) (filter (fun x => negb (decided_as stat x)) ran ++ left) ->
    Permutation (map Some kept) (map (rec stat) (filter (decided_as stat) ran) ++ map unrun keep) ->
    Permutation (tabs ++ concat (map (expand stat2) ran2)) (ran2 ++ left2) ->
    forest (expand stat2) tabs nodes2 -> incl ran2 nodes2 -> (forall x, In x (ran2 ++ left2) -> is_node x) ->
    Permutation (map Some new) (map (rec stat2) ran2 ++ map unrun left2) ->
    exists stat', (forall x, stat' x = stat x /\ decided_as stat x = true \/ stat' x = stat2 x) /\
      staged (kept ++ new) stat' (filter (decided_as stat) ran ++ ran2) (keep ++ left2).
  Proof.
    intros S T2 Pt PK B2 F2 I2 N2 P2. pose proof S as (T & N & B & P). set (D := filter (decided_as stat) ran) in *.
    set (stat' := fun x => if in_dec tab_dec x D then stat x else stat2 x). exists stat'.
    split; [intros x; unfold stat'; destruct (in_dec tab_dec x D) as [I|I]; [apply filter_In in I; left; tauto|auto]|].
    assert (T' : truthful stat') by (intros x Hx; unfold stat'; destruct (in_dec tab_dec x D); auto).
    assert (OnD : forall x, In x D -> stat' x = stat x) by (intros x Hx; unfold stat'; destruct (in_dec tab_dec x D); [reflexivity|contradiction]).
    assert (Off : forall x, ~ In x D -> stat' x = stat2 x) by (intros x Hx; unfold stat'; destruct (in_dec tab_dec x D); [contradiction|reflexivity]).
    assert (XE : forall s s' x, s x = s' x -> expand s x = expand s' x) by (intros s s' x E; unfold expand_job, halt_cell; now rewrite E).
    assert (XR : forall s s' x, s x = s' x -> rec s x = rec s' x) by (intros s s' x E; unfold record_of; now rewrite E).
    assert (ND : forall x, In x D -> is_node x) by (intros x Hx; apply N, in_app_iff; left; apply filter_In in Hx; tauto).
    assert (NT : forall x, In x (tabs ++ keep) -> is_node x).
    { intros x Hx. apply (Permutation_in _ Pt), in_app_iff in Hx. apply N, in_app_iff. destruct Hx as [Hx|Hx]; [left; apply filter_In in Hx; tauto|auto]. }
    (* the machines taken up again *)
    assert (BD : Permutation ([root] ++ concat (map (expand stat') D)) (D ++ (tabs ++ keep))).
    { rewrite Pt. rewrite (map_ext_in _ (expand stat)) by (intros x Hx; apply XE, OnD, Hx).
      assert (Q : concat (map (expand stat) (filter (fun x => negb (decided_as stat x)) ran)) = []).
      { clear. induction ran as [|x ran IH]; [reflexivity|]. cbn [filter]. destruct (decided_as stat x) eqn:E; cbn [negb]; [exact IH|].
        cbn [map concat]. rewrite IH, app_nil_r. apply expand_unknown. unfold decided_as in E. now destruct (stat x). }
      rewrite app_assoc. etransitivity; [|etransitivity; [exact B|apply Permutation_app_tail, (perm_split (decided_as stat))]].
      apply Permutation_app_head. rewrite (perm_concat_map _ _ _ (perm_split (decided_as stat) ran)), concat_map_app, Q, app_nil_r. reflexivity. }
    destruct (the_tree n m false stat' Hn Hm T' first root Hroot) as (nodes & F & NDn & HN).
    destruct (trees stat' D T' ND) as (all & FD & _). destruct (trees stat' _ T' NT) as (N' & F' & _).
    pose proof (balance_forest _ _ _ _ _ _ _ BD F FD F') as PN.
    assert (NDp : NoDup (D ++ N')) by (eapply Permutation_NoDup; eauto). destruct (NoDup_app_inv' _ _ NDp) as (_ & _ & Dis).
    destruct (forest_split _ _ _ _ F') as (N1 & N3 & FT & _ & PS).
    assert (EN : N1 = nodes2).
    { apply (forest_fun (expand stat2) tabs); [|exact F2]. apply (forest_ext _ _ _ _ FT). intros x Hx. apply XE, Off. intros Q.
      apply (Dis x Q), (Permutation_in _ (Permutation_sym PS)), in_app_iff. auto. }
    assert (On2 : forall x, In x ran2 -> stat' x = stat2 x).
    { intros x Hx. apply Off. intros Q. apply (Dis x Q), (Permutation_in _ (Permutation_sym PS)), in_app_iff. left. rewrite EN. now apply I2. }
    split; [exact T'|]. split.
    { intros x Hx. rewrite !in_app_iff in Hx. destruct Hx as [[Hx|Hx]|[Hx|Hx]]; auto; [apply N2|apply NT|apply N2]; apply in_app_iff; auto. }
    split.
    - rewrite concat_map_app, app_assoc. rewrite (map_ext_in _ (expand stat2) ran2) by (intros x Hx; apply XE, On2, Hx).
      etransitivity; [apply Permutation_app_tail, BD|]. rewrite <- !app_assoc. apply Permutation_app_head.
      etransitivity; [|rewrite (app_assoc ran2 keep), (Permutation_app_comm ran2 keep), <- app_assoc; apply Permutation_app_head, B2].
      rewrite !app_assoc. apply Permutation_app_tail, Permutation_app_comm.
    - rewrite !map_app. rewrite (map_ext_in _ (rec stat) D) by (intros x Hx; apply XR, OnD, Hx).
      rewrite (map_ext_in _ (rec stat2) ran2) by (intros x Hx; apply XR, On2, Hx).
      etransitivity; [apply Permutation_app; [exact PK|exact P2]|]. rewrite <- !app_assoc. apply Permutation_app_head.
      rewrite !app_assoc. apply Permutation_app_tail, Permutation_app_comm.
  Qed.
End Stages.
