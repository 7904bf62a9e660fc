(** * The run of to_TNF numbers states and symbols in order of first visit *)
Require Import ZArith List Lia Bool Arith Permutation.
From Verif Require Import Spec_TM Spec_Rename M_Turing_Machine M_Direct M_IO M_Enum P_Macro P_Direct P_Quint P_IO P_Tree P_Complete2 P_Permute.
Import ListNotations.
Open Scope nat_scope.

(** ** the direct simulator on a table whose other fields are arbitrary *)

Definition fix_trans (i j : nat) (t : transition nat sstate) : transition nat sstate :=
  Trans (t_cond t) (match t_cond t with RUNNING => [] | _ => [DCell j i] end) (t_sym t) (t_state t) (t_dir t) 1 [(i, 0)].
Definition fix_table (tab : ttable) : ttable := mapi_from (fun i row => mapi_from (fun j t => fix_trans i j t) 0 row) 0 tab.

Lemma cell_fix tab i j : cell (fix_table tab) i j = option_map (fix_trans i j) (cell tab i j).
Proof.
  unfold cell, fix_table. unfold ttable, trans_row in *. rewrite nth_error_mapi_from. destruct (nth_error tab i) as [row|]; simpl; auto.
  now rewrite nth_error_mapi_from.
Qed.

Lemma table_fix tab i j : table_of (fix_table tab) i j = table_of tab i j.
Proof. rewrite !table_of_cell, cell_fix. destruct (cell tab i j); reflexivity. Qed.

Lemma steps_ext (T T' : table) : (forall i j, T i j = T' i j) -> forall k c, steps T k c = steps T' k c.
Proof. intros H. induction k as [|k IH]; simpl; intros c; auto. unfold step. rewrite H. destruct (T' _ _); auto. Qed.

Lemma fix_wf n m tab : 0 < n -> 0 < m -> basic_table n m tab -> wf_ttable n m (fix_table tab).
Proof.
  intros Hn Hm ((Hl & Hr) & Hb). split; [auto|]. split; [auto|]. unfold fix_table. split; [now rewrite mapi_from_length|]. split.
  - intros row Hin. apply In_nth_error in Hin. destruct Hin as (i & E). unfold ttable, trans_row in *. rewrite nth_error_mapi_from in E.
    destruct (nth_error tab i) as [row0|] eqn:E0; [|discriminate]. simpl in E. assert (X : row = mapi_from (fun j t => fix_trans i j t) 0 row0) by congruence. rewrite X, mapi_from_length.
    apply Hr. eapply nth_error_In; eauto.
  - intros i j row t Er Et. assert (Ec : cell (fix_table tab) i j = Some t) by (unfold cell, fix_table; unfold ttable, trans_row in *; now rewrite Er).
    rewrite cell_fix in Ec. destruct (cell tab i j) as [t0|] eqn:E0; [|discriminate]. injection Ec as <-.
    specialize (Hb _ _ _ E0). unfold cell_ok, basic_cell, fix_trans in *. simpl. repeat split. destruct (t_cond t0); auto.
Qed.

Lemma fix_step tab s : ds_halted s = true \/ (exists q, ds_state s = SRun q) ->
  ds_step (simple_machine (fix_table tab)) s = ds_step (simple_machine tab) s.
Proof.
  intros H. unfold ds_step. destruct (ds_halted s) eqn:Eh; auto. destruct H as [H|(q & Eq)]; [discriminate|].
  destruct (dt_read (ds_tape s)) as [x|]; auto. cbn [simple_machine m_trans]. rewrite Eq, !simple_trans_at, cell_fix.
  destruct (cell tab q x) as [t|]; reflexivity.
Qed.

Definition bsim_ok (n m : nat) (tab : ttable) (s : dsim) : Prop := dsim_ok (table_of (fix_table tab)) n m s.

Lemma bsim_step n m tab s : 0 < n -> 0 < m -> basic_table n m tab -> bsim_ok n m tab s ->
  exists s', ds_step (simple_machine tab) s = Some s' /\ bsim_ok n m tab s' /\
    (ds_halted s = false -> ds_step_num s' = S (ds_step_num s)).
Proof.
  intros Hn Hm B H. destruct (ds_step_ok n m (fix_table tab) s (fix_wf _ _ _ Hn Hm B) H) as (s' & E & H' & _ & Hs).
  exists s'. split; auto. rewrite <- E. symmetry. apply fix_step. destruct H as (_ & _ & [(_ & _ & c & _ & Es & _)|(Hh & _)]); eauto.
Qed.

(** what the simulator shows of the run *)
Lemma bsim_obs n m tab s : bsim_ok n m tab s ->
  (exists c, steps (table_of tab) (ds_step_num s) initial = Some c /\ ds_halted s = false /\
     ds_state s = SRun (st c) /\ st c < n /\ dt_read (ds_tape s) = Some (tp c (hd c)) /\ tp c (hd c) < m) \/
  (steps (table_of tab) (ds_step_num s) initial = None /\ ds_halted s = true /\ ds_state s = SHalt /\
     exists x, dt_read (ds_tape s) = Some x).
Proof.
  intros (Ho & _ & [(Hh & _ & c & Ec & Es & Hs & Hp & Ht & Hm)|(Hh & q & x & b & t & k & c & _ & (k' & c1 & w & d & Ek & E1 & Eq & Ex & Est & _) & _ & Es & _)]).
  - left. exists c. rewrite (steps_ext _ _ (table_fix tab)) in Ec. rewrite (dt_read_at _ Ho), Ht, Hp. auto 10.
  - right. rewrite (dt_read_at _ Ho). split; [|eauto]. rewrite Ek, steps_S, <- (steps_ext _ _ (table_fix tab)), E1.
    unfold step. rewrite <- table_fix.  rewrite <- Eq, <- Ex, Est. reflexivity.
Qed.

Lemma steps_none (T : table) k j c : steps T k c = None -> k <= j -> steps T j c = None.
Proof. intros H Hj. induction Hj as [|j Hj IH]; auto. now rewrite steps_S, IH. Qed.

(** ** orders of first visit *)

Definition visits (T : table) (obs : config -> nat) (t x : nat) : Prop :=
  exists c, steps T t initial = Some c /\ obs c = x.
(** the values are numbered in the order in which they are first seen *)
Definition in_first_order (T : table) (obs : config -> nat) : Prop :=
  forall t x, visits T obs t x -> forall y, y < x -> exists t', t' < t /\ visits T obs t' y.

Section Order.
  Variables (T : table) (obs : config -> nat).
  Notation vis := (visits T obs).

  Definition ord (so : list nat) : Prop :=
    forall p t, p < length so -> vis t (nth p so 0) -> forall q, q < p -> exists t', t' < t /\ vis t' (nth q so 0).
  Definition dead (j : nat) : Prop := steps T (S j) initial = None.
  Record OI (n j : nat) (p : list nat * list nat) : Prop := {
    oi_perm : Permutation (fst p ++ snd p) (seq 0 n);
    oi_zero : nth 0 (fst p) 0 = 0 /\ fst p <> [];
    oi_ord : ord (fst p);
    oi_seen : snd p <> [] -> forall t x, t <= j -> vis t x -> In x (fst p);
    oi_done : snd p <> [] -> dead j \/ forall x, In x (fst p) -> exists t, t <= j /\ vis t x }.

  Lemma ord_app so x : ord so -> (forall t, vis t x -> forall y, In y so -> exists t', t' < t /\ vis t' y) -> ord (so ++ [x]).
  Proof.
    intros H Hx p t Hp Hv q Hq. rewrite app_length in Hp. simpl in Hp. destruct (Nat.eq_dec p (length so)) as [-> |Hne].
    - rewrite nth_middle in Hv. rewrite app_nth1 by lia. apply (Hx t Hv). apply nth_In. lia.
    - rewrite app_nth1 in Hv |- * by lia. apply (H p t); auto. lia.
  Qed.

  Lemma OI_last n j p : OI n j p -> OI n j (take_last p).
  Proof.
    destruct p as (so & us). intros H. destruct us as [|x [|y us]]; try exact H. destruct H as [Hp (Hz & Hne) Ho Hs Hd]. simpl in *.
    constructor; simpl.
    - now rewrite app_nil_r.
    - split; [|now destruct so]. destruct so; [contradiction|]. exact Hz.
    - apply ord_app; auto. intros t Hv y Hy.
      assert (Hx : ~ In x so).
      { assert (Hnd : NoDup (so ++ [x])) by (eapply Permutation_NoDup; [symmetry; exact Hp|apply seq_NoDup]).
        apply NoDup_remove_2 in Hnd. now rewrite app_nil_r in Hnd. }
      assert (Hj : j < t).
      { destruct (le_lt_dec t j) as [Hle|]; auto. exfalso. apply Hx. apply (Hs ltac:(discriminate) t x Hle Hv). }
      destruct (Hd ltac:(discriminate)) as [Hdead|Hdone].
      + destruct Hv as (c & Ec & _). unfold dead in Hdead. rewrite (steps_none _ _ t _ Hdead) in Ec by lia. discriminate.
      + destruct (Hdone y Hy) as (t' & Ht' & Hv'). exists t'. split; [lia|auto].
    - congruence.
    - congruence.
  Qed.

  Lemma filter_not_in x l : ~ In x l -> filter (fun y => negb (Nat.eqb y x)) l = l.
  Proof.
    induction l as [|a l IH]; simpl; auto. intros H. destruct (Nat.eqb_spec a x); [exfalso; auto|]. simpl. f_equal. auto.
  Qed.
  Lemma filter_perm x l : NoDup l -> In x l -> Permutation l (x :: filter (fun y => negb (Nat.eqb y x)) l).
  Proof.
    induction l as [|a l IH]; simpl; [tauto|]. intros Hd Hin. inversion Hd as [|? ? Hn Hd']; subst.
    destruct (Nat.eqb_spec a x) as [-> |Hne]; simpl.
    - now rewrite filter_not_in.
    - rewrite perm_swap. constructor. apply IH; auto. destruct Hin; [contradiction|auto].
  Qed.

  Lemma take_cases x so us : NoDup (so ++ us) ->
    (In x us /\ exists us', take (Some x) so us = (so ++ [x], us') /\ Permutation us (x :: us')) \/
    (~ In x us /\ take (Some x) so us = (so, us)).
  Proof.
    intros Hd. unfold take. destruct (existsb (Nat.eqb x) us) eqn:E.
    - left. apply existsb_eqb in E. split; auto. eexists. split; [reflexivity|]. apply filter_perm; auto.
      clear E. induction so as [|a so IH]; simpl in Hd; auto. inversion Hd; auto.
    - right. split; auto. intros Hin. apply existsb_eqb in Hin. congruence.
  Qed.

  Lemma OI_nodup n j p : OI n j p -> NoDup (fst p ++ snd p).
  Proof. intros H. eapply Permutation_NoDup; [symmetry; apply H|apply seq_NoDup]. Qed.

  Lemma OI_take n j so us c : OI n j (so, us) -> steps T (S j) initial = Some c -> obs c < n ->
    OI n (S j) (take (Some (obs c)) so us).
  Proof.
    intros H Ec Hr. pose proof (OI_nodup _ _ _ H) as Hd. simpl in Hd. destruct H as [Hp (Hz & Hne) Ho Hs Hdn]. cbn [fst snd] in *.
    assert (Hdn' : us <> [] -> forall x, In x so -> exists t, t <= j /\ vis t x).
    { intros Hu. destruct (Hdn Hu) as [X|X]; auto. unfold dead in X. congruence. }
    destruct (take_cases (obs c) so us Hd) as [(Hin & us' & -> & Pu)|(Hni & ->)].
    - assert (Hu : us <> []) by (now destruct us). constructor; simpl.
      + rewrite <- app_assoc. simpl. now rewrite <- Pu.
      + split; [|now destruct so]. destruct so; [contradiction|]. exact Hz.
      + apply ord_app; auto. intros t Hv y Hy. destruct (Hdn' Hu y Hy) as (t' & Ht' & Hv'). exists t'. split; auto.
        destruct (le_lt_dec t j) as [Hle|]; [|lia]. exfalso.
        pose proof (Hs Hu t _ Hle Hv) as X. destruct (in_split _ _ Hin) as (l1 & l2 & ->).
        rewrite app_assoc in Hd. apply NoDup_remove_2 in Hd. apply Hd. rewrite !in_app_iff. auto.
      + intros _ t x Ht Hv. rewrite in_app_iff. destruct (Nat.eq_dec t (S j)) as [-> |].
        * destruct Hv as (c' & Ec' & <-). assert (c' = c) as -> by congruence. simpl. auto.
        * left. apply (Hs Hu t); auto. lia.
      + intros _. right. intros x Hx. apply in_app_iff in Hx. destruct Hx as [Hx|[<-|[]]].
        * destruct (Hdn' Hu x Hx) as (t & Ht & Hv). exists t. split; auto.
        * exists (S j). split; auto. exists c. auto.
    - constructor; simpl; auto.
      + intros Hu t x Ht Hv. destruct (Nat.eq_dec t (S j)) as [-> |].
        * destruct Hv as (c' & Ec' & <-). assert (c' = c) as -> by congruence.
          assert (X : In (obs c) (so ++ us)) by (eapply Permutation_in; [symmetry; exact Hp|apply in_seq; lia]).
          apply in_app_iff in X. tauto.
        * apply (Hs Hu t); auto. lia.
      + intros Hu. right. intros x Hx. destruct (Hdn' Hu x Hx) as (t & Ht & Hv). exists t. split; auto.
  Qed.

  Lemma OI_dead n j so us o : OI n j (so, us) -> steps T (S j) initial = None ->
    OI n (S j) (take o so us).
  Proof.
    intros H Ec. pose proof (OI_nodup _ _ _ H) as Hd. simpl in Hd. destruct H as [Hp (Hz & Hne) Ho Hs Hdn]. cbn [fst snd] in *.
    assert (Hj : forall t x, vis t x -> t <= j).
    { intros t x (c & E & _). destruct (le_lt_dec t j); auto. rewrite (steps_none _ _ t _ Ec) in E by lia. discriminate. }
    assert (Hdead : dead (S j)) by (unfold dead; apply (steps_none _ (S j)); auto).
    assert (Hsame : OI n (S j) (so, us)).
    { constructor; simpl; auto. intros Hu t x _ Hv. apply (Hs Hu t); eauto. }
    destruct o as [x|]; [|exact Hsame].
    destruct (take_cases x so us Hd) as [(Hin & us' & -> & Pu)|(Hni & ->)]; [|exact Hsame].
    assert (Hu : us <> []) by (now destruct us). constructor; simpl.
    - rewrite <- app_assoc. simpl. now rewrite <- Pu.
    - split; [|now destruct so]. destruct so; [contradiction|]. exact Hz.
    - apply ord_app; auto. intros t Hv. exfalso.
      pose proof (Hs Hu t _ (Hj _ _ Hv) Hv) as X. destruct (in_split _ _ Hin) as (l1 & l2 & ->).
      rewrite app_assoc in Hd. apply NoDup_remove_2 in Hd. apply Hd. rewrite !in_app_iff. auto.
    - intros _ t y _ Hv. apply in_app_iff. left. apply (Hs Hu t); eauto.
    - auto.
  Qed.

  Lemma OI_start n : 0 < n -> obs initial = 0 -> OI n 0 ([0], seq 1 (n - 1)).
  Proof.
    intros Hn Ho. constructor; simpl.
    - replace n with (S (n - 1)) at 2 by lia. simpl. reflexivity.
    - split; [auto|discriminate].
    - intros p t Hp _ q Hq. simpl in Hp. lia.
    - intros _ t x Ht (c & Ec & <-). assert (t = 0) as -> by lia. simpl in Ec. injection Ec as <-. auto.
    - intros _. right. intros x [<-|[]]. exists 0. split; auto. exists initial. auto.
  Qed.
End Order.

Definition read (c : config) : nat := tp c (hd c).

Lemma tnf_loop_ok n m tab mx : 0 < n -> 0 < m -> basic_table n m tab -> forall fuel s states symbols,
  S mx <= fuel + ds_step_num s -> bsim_ok n m tab s ->
  OI (table_of tab) st n (ds_step_num s) states -> OI (table_of tab) read m (ds_step_num s) symbols ->
  match tnf_loop (simple_machine tab) mx fuel s states symbols with
  | None => False
  | Some None => (exists x, x < n /\ forall t, t <= S mx -> ~ visits (table_of tab) st t x) \/
                 (exists x, x < m /\ forall t, t <= S mx -> ~ visits (table_of tab) read t x)
  | Some (Some (so, syo)) => Permutation so (seq 0 n) /\ Permutation syo (seq 0 m) /\
      nth 0 so 0 = 0 /\ nth 0 syo 0 = 0 /\
      ord (table_of tab) st so /\ ord (table_of tab) read syo
  end.
Proof.
  intros Hn Hm B.
  assert (Hleft : forall s states symbols, bsim_ok n m tab s ->
    OI (table_of tab) st n (ds_step_num s) states -> OI (table_of tab) read m (ds_step_num s) symbols ->
    (nonempty (snd states) || nonempty (snd symbols))%bool = true -> (mx < ds_step_num s \/ ds_halted s = true) ->
    (exists x, x < n /\ forall t, t <= S mx -> ~ visits (table_of tab) st t x) \/
    (exists x, x < m /\ forall t, t <= S mx -> ~ visits (table_of tab) read t x)).
  { intros s states symbols Hs Hst Hsy Hne Hend.
    assert (G : forall obs k p, OI (table_of tab) obs k (ds_step_num s) p -> nonempty (snd p) = true ->
      exists x, x < k /\ forall t, t <= S mx -> ~ visits (table_of tab) obs t x).
    { intros obs k (so & us) H Hu. pose proof (OI_nodup _ _ _ _ _ H) as Hd. destruct H as [Hp _ _ Hseen _]. simpl in *.
      destruct us as [|x us]; [discriminate|]. exists x. split.
      - assert (X : In x (seq 0 k)) by (apply (Permutation_in _ Hp); rewrite in_app_iff; simpl; auto). apply in_seq in X. lia.
      - intros t Ht Hv. apply NoDup_remove_2 in Hd. apply Hd, in_app_iff. left. apply (Hseen ltac:(discriminate) t); auto.
        destruct (le_lt_dec t (ds_step_num s)) as [|Hgt]; auto. destruct Hend as [|Hh]; [lia|]. exfalso.
        destruct (bsim_obs _ _ _ _ Hs) as [(c & _ & Hh' & _)|(En & _)]; [congruence|].
        destruct Hv as (c & Ec & _). rewrite (steps_none _ _ t _ En) in Ec by lia. discriminate. }
    apply orb_true_iff in Hne. destruct Hne as [Hne|Hne]; eauto. }
  induction fuel as [|fuel IH]; intros s states symbols Hf Hs Hst Hsy; cbn [tnf_loop].
  all: destruct (nonempty (snd states) || nonempty (snd symbols))%bool eqn:Ene.
  2,4: apply orb_false_iff in Ene; destruct Ene as (E1 & E2);
    destruct states as (so & [|]), symbols as (syo & [|]); try discriminate;
    destruct Hst as [P1 (Z1 & _) O1 _ _], Hsy as [P2 (Z2 & _) O2 _ _]; simpl in *; rewrite app_nil_r in P1, P2; auto 10.
  - destruct (Nat.ltb_spec mx (ds_step_num s)); simpl; [eauto|]. lia.
  - destruct (Nat.ltb_spec mx (ds_step_num s)) as [|Hlt]; simpl; [eauto|]. destruct (ds_halted s) eqn:Eh; [eauto|].
    destruct (bsim_step n m tab s Hn Hm B Hs) as (s' & Es & Hs' & Hk). specialize (Hk Eh). rewrite Es.
    destruct states as (so & us), symbols as (syo & uy). simpl fst. simpl snd.
    destruct (bsim_obs _ _ _ _ Hs') as [(c & Ec & Eh' & Eq & Hq & Er & Hx)|(Ec & Eh' & Eq & x & Er)]; rewrite Er, Eq; apply IH; auto; try lia;
      apply OI_last; rewrite Hk in Ec |- *.
    + now apply OI_take.
    + apply (OI_take _ read m _ _ _ c); auto.
    + exact (OI_dead _ _ _ _ _ _ None Hst Ec).
    + exact (OI_dead _ _ _ _ _ _ (Some x) Hsy Ec).
Qed.
