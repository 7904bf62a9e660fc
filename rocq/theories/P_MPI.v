(** * The distributed work queue: accounting of jobs, stopping, absence of deadlock *)
Require Import ZArith List Lia Bool Arith Permutation.
From Verif Require Import M_Turing_Machine M_MPI P_Stream P_Quint.
Import ListNotations.
Open Scope nat_scope.

(** ** Lists *)
Lemma sum_lset {A} (f : A -> nat) ws r w w' : nth_error ws r = Some w ->
  list_sum (map f (lset ws r w')) + f w = list_sum (map f ws) + f w'.
Proof.
  revert r. induction ws as [|a ws IH]; intros [|r] E; simpl in *; try discriminate.
  - injection E as ->. lia.
  - specialize (IH r E). lia.
Qed.

Lemma lset_nth {A} (l : list A) r v i : nth_error (lset l r v) i = if Nat.eqb r i then match nth_error l i with Some _ => Some v | None => None end else nth_error l i.
Proof. apply nth_error_lset. Qed.

Lemma In_lset {A} (l : list A) r v x : In x (lset l r v) -> x = v \/ In x l.
Proof.
  revert r. induction l as [|a l IH]; intros [|r]; simpl; auto.
  - intros [H|H]; auto.
  - intros [H|H]; auto. destruct (IH r H); auto.
Qed.

Lemma In_lset_new {A} (l : list A) r v : r < length l -> In v (lset l r v).
Proof. revert r. induction l as [|a l IH]; intros [|r] H; simpl in *; try lia; auto. right. apply IH. lia. Qed.

Lemma neg_slices {A} (l extra keep : list A) x : slice_to_neg l x = Some extra -> slice_from_neg l x = Some keep -> extra ++ keep = l.
Proof. destruct x as [[|n]|]; simpl; try discriminate; intros [= <-] [= <-]; auto. apply firstn_skipn. Qed.

Lemma slices {A} (l a b : list A) x : slice_to l x = Some a -> slice_from l x = Some b -> a ++ b = l.
Proof. destruct x; simpl; try discriminate. intros [= <-] [= <-]. apply firstn_skipn. Qed.

(** ** Accounting *)
Definition pushes (l : list wmsg) : list job := flat_map (fun m => match m with PUSH_JOBS l => l | _ => [] end) l.
(** the jobs that are at a worker, under way from it or under way to it *)
Definition jobs_of (w : worker) : list job := w_queue w ++ pushes (w_arr w) ++ pushes (w_out w) ++ concat (w_pop w).
(** all jobs that are somewhere *)
Definition jobs_left (s : sys) : list job := m_queue (s_master s) ++ flat_map jobs_of (s_workers s).

Notation cnt x l := (count_occ Nat.eq_dec l x).

Lemma pushes_app a b : pushes (a ++ b) = pushes a ++ pushes b.
Proof. apply flat_map_app. Qed.

Lemma cnt_app x a b : cnt x (a ++ b) = cnt x a + cnt x b.
Proof. apply count_occ_app. Qed.

Lemma cnt_flat x ws : cnt x (flat_map jobs_of ws) = list_sum (map (fun w => cnt x (jobs_of w)) ws).
Proof. induction ws as [|w ws IH]; simpl; auto. now rewrite cnt_app, IH. Qed.

Lemma cnt_jobs x w : cnt x (jobs_of w) = cnt x (w_queue w) + cnt x (pushes (w_arr w)) + cnt x (pushes (w_out w)) + cnt x (concat (w_pop w)).
Proof. unfold jobs_of. rewrite !cnt_app. lia. Qed.

Ltac count := repeat (rewrite ?pushes_app, ?concat_app, ?cnt_app; cbn [pushes flat_map concat app count_occ]).

Lemma wstep_count x w w' pu po : wstep w w' pu po -> cnt x (jobs_of w') + cnt x po = cnt x (jobs_of w) + cnt x pu.
Proof.
  intros H. rewrite !cnt_jobs. destruct H; unfold w_send; cbn [w_queue w_arr w_out w_pop].
  - rewrite H0. destruct H1 as [-> | ->]; count; rewrite ?app_nil_r; count; lia.
  - rewrite H0. count. lia.
  - assert (X : cnt x (w_queue w) + cnt x l = cnt x q + cnt x [j]) by (rewrite <- (cnt_app x (w_queue w) l), <- (cnt_app x q [j]); f_equal; exact H1). rewrite H0. count. cbn [count_occ] in X. lia.
  - apply app_eq_nil in H1. destruct H1 as (-> & ->). rewrite H0. count. lia.
  - count. lia.
  - count. lia.
  - count. lia.
  - pose proof (neg_slices _ _ _ _ H1 H2) as E. rewrite <- E. count. lia.
  - count. lia.
  - count. lia.
  - destruct H0 as [-> | ->]; count; lia.
Qed.

Lemma arrives_count x f w w' : arrives f w w' -> cnt x (jobs_of w') = cnt x (jobs_of w).
Proof.
  intros [w0 a m b E _]. rewrite !cnt_jobs. cbn [w_queue w_arr w_out w_pop]. rewrite E.
  rewrite !pushes_app, !cnt_app. change (m :: b) with ([m] ++ b). rewrite pushes_app, cnt_app. lia.
Qed.

Lemma takes_count x w m w' : takes w m w' -> cnt x (jobs_of w') + cnt x (pushes [m]) = cnt x (jobs_of w).
Proof.
  intros (a & b & E & _ & ->). rewrite !cnt_jobs. cbn [w_queue w_arr w_out w_pop]. rewrite E.
  change (m :: b) with ([m] ++ b). rewrite !pushes_app, !cnt_app. lia.
Qed.

Lemma mstep_count x m ws m' ws' : mstep m ws m' ws' ->
  cnt x (m_queue m') + cnt x (flat_map jobs_of ws') = cnt x (m_queue m) + cnt x (flat_map jobs_of ws).
Proof.
  intros H. rewrite !cnt_flat. destruct H; cbn [m_queue]; auto.
  - pose proof (sum_lset (fun w => cnt x (jobs_of w)) ws r w w' H) as X. pose proof (takes_count x _ _ _ H0) as Y.
    cbn [pushes flat_map app count_occ] in Y. cbv beta in X. lia.
  - pose proof (sum_lset (fun w => cnt x (jobs_of w)) ws r w w' H) as X. pose proof (takes_count x _ _ _ H0) as Y.
    cbn [pushes flat_map] in Y. rewrite app_nil_r in Y. rewrite cnt_app. cbv beta in X. lia.
  - pose proof (sum_lset (fun w => cnt x (jobs_of w)) ws r w w' H) as X. pose proof (takes_count x _ _ _ H0) as Y.
    cbn [pushes flat_map app count_occ] in Y. cbv beta in X. lia.
  - pose proof (sum_lset (fun w => cnt x (jobs_of w)) ws r w (send_upd w (upd ++ [x0])) H) as X. cbv beta in X.
    change (jobs_of (send_upd w (upd ++ [x0]))) with (jobs_of w) in X. lia.
  - pose proof (sum_lset (fun w => cnt x (jobs_of w)) ws r w (send_pop w []) H) as X. cbv beta in X.
    rewrite !cnt_jobs in X. unfold send_pop in X at 2 3 4 5. cbn [w_queue w_arr w_out w_pop] in X. rewrite concat_app, cnt_app in X. cbn [concat app count_occ] in X. lia.
  - pose proof (sum_lset (fun w => cnt x (jobs_of w)) ws r w (send_pop w block) H3) as X. cbv beta in X.
    rewrite !cnt_jobs in X. unfold send_pop in X at 2 3 4 5. cbn [w_queue w_arr w_out w_pop] in X. rewrite concat_app, cnt_app in X.
    cbn [concat] in X. rewrite app_nil_r in X. rewrite <- (slices _ _ _ _ H0 H1), cnt_app. lia.
Qed.

Lemma accounting fifo n jobs s : reachable fifo n jobs s -> Permutation (s_pushed s) (s_popped s ++ jobs_left s).
Proof.
  intros H. apply (Permutation_count_occ Nat.eq_dec). intros x. rewrite cnt_app. unfold jobs_left. rewrite cnt_app.
  induction H as [|s s' Hs IH Hstep].
  - unfold sys_init. cbn [s_pushed s_popped s_master s_workers m_queue count_occ].
    assert (E : flat_map jobs_of (repeat worker_init n) = []) by (clear; induction n; simpl; auto). rewrite E. simpl. lia.
  - destruct Hstep as [m ws pu po r w w' pushed popped Er Hw|m ws pu po r w w' Er Hw|m ws pu po m' ws' Hm]; cbn [s_pushed s_popped s_master s_workers] in *.
    + pose proof (wstep_count x _ _ _ _ Hw) as X. pose proof (sum_lset (fun w => cnt x (jobs_of w)) ws r w w' Er) as Y. cbv beta in Y.
      rewrite cnt_flat in *. rewrite !cnt_app. lia.
    + pose proof (arrives_count x _ _ _ Hw) as X. pose proof (sum_lset (fun w => cnt x (jobs_of w)) ws r w w' Er) as Y. cbv beta in Y.
      rewrite cnt_flat in *. lia.
    + pose proof (mstep_count x _ _ _ _ Hm). lia.
Qed.

(** ** The invariant when messages arrive in order *)
Definition noW (l : list wmsg) : Prop := ~ In WAITING_FOR_POP l.
Definition noP (l : list wmsg) : Prop := forall x, In x l -> same_tag x (PUSH_JOBS []) = false.
Definition late (pc : mpc) : Prop := match pc with MWaiting | MPush => False | _ => True end.
Definition told (pc : mpc) (r : nat) : Prop := match pc with MStop k => r < k | MDone => True | _ => False end.
Definition stopping (pc : mpc) : Prop := match pc with MStop _ | MDone => True | _ => False end.

Inductive wcase (pc : mpc) (r : nat) (w : worker) (b : bool) : Prop :=
  | c_active : w_pc w <> WWait -> w_pc w <> WDone -> noW (w_arr w) -> noW (w_out w) -> w_pop w = [] -> b = true -> wcase pc r w b
  | c_asked x : w_pc w = WWait -> w_queue w = [] -> w_pop w = [] -> b = true -> w_arr w ++ w_out w = x ++ [WAITING_FOR_POP] -> noW x -> wcase pc r w b
  | c_waiting : w_pc w = WWait -> w_queue w = [] -> w_pop w = [] -> b = false -> w_out w = [] -> noW (w_arr w) ->
      (late pc -> noP (w_arr w)) -> ~ told pc r -> wcase pc r w b
  | c_given l : w_pc w = WWait -> w_queue w = [] -> w_pop w = [l] -> l <> [] -> b = true -> w_out w = [] -> noW (w_arr w) -> noP (w_arr w) -> wcase pc r w b
  | c_told : w_pc w = WWait -> w_queue w = [] -> w_pop w = [[]] -> b = false -> w_out w = [] -> noP (w_arr w) -> told pc r -> wcase pc r w b
  | c_ended : w_pc w = WDone -> w_queue w = [] -> w_pop w = [] -> b = false -> w_out w = [] -> noP (w_arr w) -> told pc r -> wcase pc r w b.

Definition pc_ok (pc : mpc) (q : list job) (s : list bool) : Prop :=
  match pc with
  | MProbe => In true s
  | MUpdate _ x => 25 <= x
  | MQuit t => 75 <= quarters t
  | MBatch t => 75 <= quarters t /\ (q <> [] \/ In true s)
  | MSendLoop _ batch _ => 40 <= quarters batch /\ (q <> [] \/ In true s)
  | MStop _ | MDone => q = [] /\ ~ In true s
  | _ => True
  end.

Record inv (n : nat) (m : master) (ws : list worker) : Prop := {
  i_ws : length ws = n;
  i_state : length (m_state m) = n;
  i_pc : pc_ok (m_pc m) (m_queue m) (m_state m);
  i_case : forall r w b, nth_error ws r = Some w -> nth_error (m_state m) r = Some b -> wcase (m_pc m) r w b }.

Lemma inv_init n jobs : 0 < n -> inv n (s_master (sys_init n jobs)) (s_workers (sys_init n jobs)).
Proof.
  intros Hn. split; simpl; try apply repeat_length.
  - destruct n; [lia|]. simpl. auto.
  - intros r w b Ew Eb. apply nth_error_In, repeat_spec in Ew, Eb. subst. apply c_active; simpl; auto; try discriminate; intros [].
Qed.

Ltac wfields := cbn [w_pc w_queue w_max w_target w_out w_arr w_pop w_upd w_send send_pop send_upd] in *.

Lemma noW_app a b : noW (a ++ b) <-> noW a /\ noW b.
Proof. unfold noW. rewrite in_app_iff. tauto. Qed.
Lemma noP_app a b : noP (a ++ b) <-> noP a /\ noP b.
Proof.
  unfold noP. split.
  - intros H. split; intros x Hx; apply H, in_app_iff; auto.
  - intros (H1 & H2) x Hx. apply in_app_iff in Hx. destruct Hx; auto.
Qed.
Lemma noW_report a k : noW a -> noW (a ++ [REPORT_QUEUE_SIZE k]).
Proof. intros H. apply noW_app. split; auto. intros [|[]]; discriminate. Qed.
Lemma noW_nil : noW []. Proof. intros []. Qed.
#[local] Hint Resolve noW_nil noW_report : core.

Lemma wcase_wstep pc r w w' b pu po : wstep w w' pu po -> wcase pc r w b -> wcase pc r w' b.
Proof.
  intros H C.
  assert (A : w_pc w <> WWait -> w_pc w <> WDone -> noW (w_arr w) /\ noW (w_out w) /\ w_pop w = [] /\ b = true)
    by (intros; destruct C; try congruence; auto).
  destruct H; wfields.
  - destruct A as (A1 & A2 & A3 & A4); try congruence. apply c_active; wfields; auto; try congruence. destruct H1 as [-> | ->]; rewrite ?app_nil_r; auto.
  - destruct A as (A1 & A2 & A3 & A4); try congruence. apply (c_asked _ _ _ _ (w_arr w ++ w_out w)); wfields; auto; [now rewrite app_assoc|].
    apply noW_app; auto.
  - destruct C; try congruence.
    + rewrite H4 in H0. injection H0 as <- <-. apply c_active; wfields; auto; try congruence. now rewrite H7.
    + rewrite H4 in H0. injection H0 as <- <-. rewrite H3 in H1. destruct q; discriminate.
  - destruct C; try congruence.
    + rewrite H4 in H0. injection H0 as <- <-. rewrite H3 in H1. simpl in H1. congruence.
    + rewrite H4 in H0. injection H0 as <- <-. apply c_ended; wfields; auto.
  - destruct A as (A1 & A2 & A3 & A4); try congruence. apply c_active; wfields; auto; try congruence. now rewrite app_nil_r.
  - destruct A as (A1 & A2 & A3 & A4); try congruence. apply c_active; wfields; auto; congruence.
  - destruct A as (A1 & A2 & A3 & A4); try congruence. apply c_active; wfields; auto; try congruence. now rewrite app_nil_r.
  - destruct A as (A1 & A2 & A3 & A4); try congruence. apply c_active; wfields; auto; try congruence. apply noW_app. split; auto. intros [|[]]; discriminate.
  - destruct A as (A1 & A2 & A3 & A4); try congruence. apply c_active; wfields; auto; try congruence. now rewrite app_nil_r.
  - destruct A as (A1 & A2 & A3 & A4); try congruence. apply c_active; wfields; auto; try congruence. now rewrite app_nil_r.
  - destruct A as (A1 & A2 & A3 & A4); try congruence. apply c_active; wfields; auto; try congruence. destruct H0 as [-> | ->]; rewrite ?app_nil_r; auto.
Qed.

Lemma wcase_arrives pc r w w' b : arrives true w w' -> wcase pc r w b -> wcase pc r w' b.
Proof.
  intros [w0 a m c E Ha] C. subst a. simpl in E |- *. destruct C; try (rewrite E in *; discriminate).
  - rewrite E in H2. apply c_active; wfields; auto.
    + apply noW_app. split; auto. intros [->|[]]. apply H2. simpl. auto.
    + intros X. apply H2. simpl. auto.
  - apply (c_asked _ _ _ _ x); wfields; auto. rewrite E in H3. rewrite <- app_assoc. exact H3.
Qed.

(** the case of a worker does not depend on the place of the master, except as follows *)
Lemma wcase_pc pc pc' r w b : wcase pc r w b ->
  (late pc' -> late pc \/ noP (w_arr w)) -> (told pc' r <-> told pc r) -> wcase pc' r w b.
Proof.
  intros C Hl Ht. destruct C.
  - now apply c_active.
  - now apply (c_asked _ _ _ _ x).
  - apply c_waiting; auto; [|tauto]. intros X. destruct (Hl X); auto.
  - now apply (c_given _ _ _ _ l).
  - apply c_told; auto. tauto.
  - apply c_ended; auto. tauto.
Qed.

(** a worker from which no message to look at was taken *)
Lemma wcase_takes pc r w m w' b : takes w m w' -> same_tag m WAITING_FOR_POP = false -> wcase pc r w b -> wcase pc r w' b.
Proof.
  intros (x & y & E & _ & ->) Hm C.
  assert (NW : noW (w_arr w) -> noW (x ++ y)) by (rewrite E; unfold noW; rewrite !in_app_iff; simpl; tauto).
  assert (NP : noP (w_arr w) -> noP (x ++ y)) by (rewrite E; unfold noP; intros X z Hz; apply X; rewrite !in_app_iff in *; simpl; tauto).
  destruct C.
  - apply c_active; wfields; auto.
  - rewrite E in H3. rewrite <- app_assoc in H3. simpl in H3.
    destruct (y ++ w_out w) as [|e l] eqn:El using rev_ind.
    + apply app_inj_tail in H3. destruct H3 as (_ & ->). discriminate.
    + change (x ++ m :: l ++ [e] = x0 ++ [WAITING_FOR_POP]) in H3.
      assert (H3' : (x ++ m :: l) ++ [e] = x0 ++ [WAITING_FOR_POP]) by (rewrite <- app_assoc; exact H3).
      apply app_inj_tail in H3'. destruct H3' as (<- & ->).
      apply (c_asked _ _ _ _ (x ++ l)); wfields; auto; [rewrite <- !app_assoc, El; reflexivity|].
      revert H4. unfold noW. rewrite !in_app_iff. simpl. tauto.
  - apply c_waiting; wfields; auto.
  - apply (c_given _ _ _ _ l); wfields; auto.
  - apply c_told; wfields; auto.
  - apply c_ended; wfields; auto.
Qed.

Lemma wcase_told_false pc r w b : wcase pc r w b -> ~ told pc r -> In WAITING_FOR_POP (w_arr w) ->
  forall w', takes w WAITING_FOR_POP w' -> ~ late pc -> wcase pc r w' false.
Proof.
  intros C Ht Hin w' (x & y & E & Hx & ->) Hl. destruct C; try (exfalso; auto; fail); try contradiction.
  rewrite E in H3. rewrite <- app_assoc in H3. simpl in H3.
  destruct (y ++ w_out w) as [|e l] eqn:El using rev_ind.
  - apply app_inj_tail in H3. destruct H3 as (<- & _). apply app_eq_nil in El. destruct El as (-> & Eo).
    apply c_waiting; wfields; auto; rewrite ?app_nil_r; auto. intros X. contradiction.
  - assert (H3' : (x ++ WAITING_FOR_POP :: l) ++ [e] = x0 ++ [WAITING_FOR_POP]) by (rewrite <- app_assoc; exact H3).
    apply app_inj_tail in H3'. destruct H3' as (<- & _). exfalso. apply H4. apply in_app_iff. simpl. auto.
Qed.

Lemma index_false_spec s r : index_false s = Some r -> nth_error s r = Some false.
Proof.
  revert r. induction s as [|[] s IH]; intros r; simpl; [discriminate| |].
  - destruct (index_false s) as [k|]; [|discriminate]. intros [= <-]. simpl. auto.
  - intros [= <-]. reflexivity.
Qed.
Lemma index_false_some s : In false s -> exists r, index_false s = Some r.
Proof.
  induction s as [|[] s IH]; simpl; [tauto| |].
  - intros [|H]; [discriminate|]. destruct (IH H) as (r & ->). eexists; reflexivity.
  - eauto.
Qed.

Lemma new_max_25 q z : 25 <= new_max q z.
Proof. unfold new_max, MAX_NUM_JOBS_PER_BATCH. lia. Qed.

Lemma no_waiting s : num_waiting s = 0 -> ~ In false s.
Proof.
  unfold num_waiting. intros H Hin. apply length_zero_iff_nil in H.
  assert (X : In false (filter negb s)) by (apply filter_In; auto). rewrite H in X. destruct X.
Qed.

Lemma all_true n s : length s = n -> 0 < n -> ~ In false s -> In true s.
Proof. destruct s as [|[] s]; simpl; intros; subst; [lia|auto|tauto]. Qed.

Lemma nth_same {A} (l : list A) r v x i : nth_error (lset l r v) i = Some x -> (i = r /\ x = v /\ r < length l) \/ (i <> r /\ nth_error l i = Some x).
Proof.
  rewrite nth_error_lset. destruct (Nat.eqb_spec r i) as [<-|Hne].
  - destruct (nth_error l r) eqn:E; [|discriminate]. intros [= <-]. left. repeat split; auto. apply nth_error_Some. congruence.
  - intros H. right. auto.
Qed.

Lemma inv_mstep n m ws m' ws' : 0 < n -> mstep m ws m' ws' -> inv n m ws -> inv n m' ws'.
Proof.
  intros Hn H [I1 I2 I3 I4]. destruct H; cbn [m_pc m_queue m_state] in *.
  - (* probe *) split; cbn [m_pc m_queue m_state]; simpl; auto. intros r w0 b Ew Eb. eapply wcase_pc; [eauto|simpl; tauto|simpl; tauto].
  - (* waiting *) split; cbn [m_pc m_queue m_state]; rewrite ?lset_length; simpl; auto.
    intros i w0 b Ew Eb. apply nth_same in Ew, Eb. destruct Ew as [(-> & -> & Hr)|(Hi & Ew)], Eb as [(Ei & -> & Hr')|(Hi' & Eb)]; try congruence; eauto.
    assert (exists b, nth_error s r = Some b) as (b & Eb) by (destruct (nth_error s r) eqn:E; eauto; apply nth_error_None in E; lia).
    eapply wcase_told_false; eauto. { destruct H0 as (x & y & E & _). rewrite E. apply in_app_iff. simpl. auto. }
  - (* waiting end *) split; cbn [m_pc m_queue m_state]; simpl; auto. intros r w b Ew Eb. eapply wcase_pc; [eauto|simpl; tauto|simpl; tauto].
  - (* push *) split; cbn [m_pc m_queue m_state]; rewrite ?lset_length; simpl; auto.
    intros i w0 b Ew Eb. apply nth_same in Ew. destruct Ew as [(-> & -> & Hr)|(Hi & Ew)]; eauto. eapply wcase_takes; eauto.
  - (* push end *) split; cbn [m_pc m_queue m_state]; simpl; auto. intros r w b Ew Eb. eapply wcase_pc; [eauto| |simpl; tauto].
    intros _. right. intros x Hx. apply (H w); auto. eapply nth_error_In; eauto.
  - (* size *) split; cbn [m_pc m_queue m_state]; rewrite ?lset_length; simpl; auto.
    intros i w0 b Ew Eb. apply nth_same in Ew. destruct Ew as [(-> & -> & Hr)|(Hi & Ew)]; eauto. eapply wcase_takes; eauto.
  - (* size end *) split; cbn [m_pc m_queue m_state]; simpl; auto. intros r w b Ew Eb. eapply wcase_pc; [eauto|simpl; tauto|simpl; tauto].
  - (* updates *) split; cbn [m_pc m_queue m_state]; auto; [cbn [pc_ok]; apply new_max_25|]. intros r w b Ew Eb. eapply wcase_pc; [eauto|simpl; tauto|simpl; tauto].
  - (* no updates *) split; cbn [m_pc m_queue m_state]; auto.
    { cbn [pc_ok three_quarters quarters]. pose proof (new_max_25 q z). lia. } intros r w b Ew Eb. eapply wcase_pc; [eauto|simpl; tauto|simpl; tauto].
  - (* update *) split; cbn [m_pc m_queue m_state]; rewrite ?lset_length; auto.
    intros i w0 b Ew Eb. apply nth_same in Ew. destruct Ew as [(-> & -> & Hr)|(Hi & Ew)].
    + specialize (I4 _ _ _ H Eb). destruct I4.
      1: apply c_active; wfields; assumption. 1: apply (c_asked _ _ _ _ x0); wfields; assumption.
      1: apply c_waiting; wfields; assumption. 1: apply (c_given _ _ _ _ l); wfields; assumption. all: simpl in *; contradiction.
    + eapply wcase_pc; [eauto|simpl; tauto|simpl; tauto].
  - (* update end *) split; cbn [m_pc m_queue m_state]; auto.
    { cbn [pc_ok three_quarters quarters] in *. lia. } intros i w b Ew Eb. eapply wcase_pc; [eauto|simpl; tauto|simpl; tauto].
  - (* quit *) split; cbn [m_pc m_queue m_state]; simpl; auto. intros r w b Ew Eb. eapply wcase_pc; [eauto|simpl; tauto|simpl; split; [lia|tauto]].
  - (* no quit *) split; cbn [m_pc m_queue m_state]; simpl; auto. intros r w b Ew Eb. eapply wcase_pc; [eauto|simpl; tauto|simpl; tauto].
  - (* stop *) split; cbn [m_pc m_queue m_state]; rewrite ?lset_length; simpl; auto.
    intros i w0 b Ew Eb. apply nth_same in Ew. simpl in I3. destruct I3 as (Eq & Hs). destruct Ew as [(-> & -> & Hr)|(Hi & Ew)].
    + assert (Hb : b = false) by (destruct b; auto; apply nth_error_In in Eb; contradiction). subst b.
      specialize (I4 _ _ _ H Eb). destruct I4; try congruence; simpl in *; try lia.
      apply c_told; wfields; auto; [now rewrite H2|simpl; lia].
    + eapply wcase_pc; [eauto|simpl; tauto|simpl; lia].
  - (* stopped *) split; cbn [m_pc m_queue m_state]; simpl; auto. intros i w b Ew Eb. eapply wcase_pc; [eauto|simpl; tauto|simpl].
    apply nth_error_None in H. assert (i < length ws) by (apply nth_error_Some; congruence). split; [lia|auto].
  - (* no batch *) split; cbn [m_pc m_queue m_state]; simpl; auto.
    { eapply all_true; eauto. now apply no_waiting. } intros r w b Ew Eb. eapply wcase_pc; [eauto|simpl; tauto|simpl; tauto].
  - (* batch *) split; cbn [m_pc m_queue m_state]; auto.
    { cbn [pc_ok] in *. destruct I3 as (I3 & I3'). split; auto. subst batch. unfold num_min. destruct (Nat.ltb_spec (quarters t) (quarters (NInt (Nat.max MIN_NUM_JOBS_PER_BATCH (length q / num_waiting s))))); [lia|].
      cbn [quarters]. unfold MIN_NUM_JOBS_PER_BATCH. lia. }
    intros r w b Ew Eb. eapply wcase_pc; [eauto|simpl; tauto|simpl; tauto].
  - (* send *) pose proof (index_false_spec _ _ H2) as Ef.
    split; cbn [m_pc m_queue m_state]; rewrite ?lset_length; auto.
    { cbn [pc_ok] in *. destruct I3 as (I3 & _). split.
      - destruct (4 * Z.of_nat (S c) =? inc)%Z; auto. destruct batch as [k|k]; cbn [num_succ quarters] in *; lia.
      - right. apply In_lset_new. apply nth_error_Some. congruence. }
    intros i w0 b Ew Eb. apply nth_same in Ew, Eb. destruct Ew as [(-> & -> & Hr)|(Hi & Ew)], Eb as [(Ei & -> & Hr')|(Hi' & Eb)]; try congruence.
    + specialize (I4 _ _ _ H3 Ef). destruct I4; try congruence; simpl in *; try contradiction.
      apply (c_given _ _ _ _ block); wfields; auto; [now rewrite H6|].
      cbn [pc_ok] in I3. destruct I3 as (I3 & _). destruct batch as [k|k]; [|discriminate]. simpl in H0. injection H0 as <-. cbn [quarters] in I3.
      destruct k; [lia|]. destruct q; [congruence|discriminate].
    + eapply wcase_pc; [apply (I4 _ _ _ Ew Eb)|simpl; tauto|simpl; tauto].
  - (* send error *) split; cbn [m_pc m_queue m_state]; simpl; auto. intros r w b Ew Eb. eapply wcase_pc; [eauto|simpl; tauto|simpl; tauto].
  - (* send end *) split; cbn [m_pc m_queue m_state]; simpl; auto.
    { cbn [pc_ok] in I3. destruct I3 as (_ & [I3|I3]); auto. destruct H; [contradiction|]. eapply all_true; eauto. }
    intros r w b Ew Eb. eapply wcase_pc; [eauto|simpl; tauto|simpl; tauto].
Qed.

Lemma inv_reachable n jobs s : 0 < n -> reachable true n jobs s -> inv n (s_master s) (s_workers s).
Proof.
  intros Hn H. induction H as [|s s' Hs IH Hstep]; [now apply inv_init|].
  destruct Hstep as [m ws pu po r w w' pushed popped Er Hw|m ws pu po r w w' Er Hw|m ws pu po m' ws' Hm]; cbn [s_master s_workers] in *.
  - destruct IH as [I1 I2 I3 I4]. split; rewrite ?lset_length; auto. intros i w0 b Ew Eb. apply nth_same in Ew.
    destruct Ew as [(-> & -> & Hr)|(Hi & Ew)]; eauto. eapply wcase_wstep; eauto.
  - destruct IH as [I1 I2 I3 I4]. split; rewrite ?lset_length; auto. intros i w0 b Ew Eb. apply nth_same in Ew.
    destruct Ew as [(-> & -> & Hr)|(Hi & Ew)]; eauto. eapply wcase_arrives; eauto.
  - eapply inv_mstep; eauto.
Qed.

(** ** Stopping *)
Lemma flat_map_nil {A B} (f : A -> list B) l : (forall x, In x l -> f x = []) -> flat_map f l = [].
Proof. induction l as [|a l IH]; simpl; intros H; auto. rewrite (H a) by auto. simpl. auto. Qed.

Lemma noP_pushes l : noP l -> pushes l = [].
Proof. intros H. apply flat_map_nil. intros [| |] Hx; auto. apply H in Hx. discriminate. Qed.

Lemma stopped_state n m ws : inv n m ws -> stopping (m_pc m) ->
  m_queue m = [] /\ forall w, In w ws -> jobs_of w = [] /\ (w_pc w = WWait \/ w_pc w = WDone).
Proof.
  intros [I1 I2 I3 I4] Hs. assert (X : m_queue m = [] /\ ~ In true (m_state m)) by (destruct (m_pc m); simpl in *; tauto).
  destruct X as (X1 & X2). split; auto. intros w Hw. apply In_nth_error in Hw. destruct Hw as (r & Er).
  assert (exists b, nth_error (m_state m) r = Some b) as (b & Eb).
  { destruct (nth_error (m_state m) r) eqn:E; eauto. apply nth_error_None in E. assert (r < length ws) by (apply nth_error_Some; congruence). lia. }
  assert (b = false) as -> by (destruct b; auto; apply nth_error_In in Eb; contradiction).
  specialize (I4 _ _ _ Er Eb). unfold jobs_of. destruct I4; try discriminate; repeat match goal with H : w_queue w = _ |- _ => rewrite H | H : w_pop w = _ |- _ => rewrite H | H : w_out w = _ |- _ => rewrite H end.
  - assert (late (m_pc m)) by (destruct (m_pc m); simpl in *; tauto). rewrite noP_pushes by auto. auto.
  - rewrite noP_pushes by auto. auto.
  - rewrite noP_pushes by auto. auto.
Qed.

(** ** No deadlock *)
Lemma find_arrived ws m : none_arrived ws m \/ exists r w x w', nth_error ws r = Some w /\ same_tag x m = true /\ takes w x w'.
Proof.
  induction ws as [|w ws IH].
  - left. intros w x [].
  - assert (D : (forall x, In x (w_arr w) -> same_tag x m = false) \/ exists a x b, w_arr w = a ++ x :: b /\ same_tag x m = true /\ forall y, In y a -> same_tag y m = false).
    { induction (w_arr w) as [|x l IHl]; [left; intros x []|]. destruct (same_tag x m) eqn:E.
      - right. exists [], x, l. split; auto. split; auto. intros y [].
      - destruct IHl as [H|(a & y & b & -> & Ey & Ha)]; [left|right].
        + intros y [<-|Hy]; auto.
        + exists (x :: a), y, b. split; auto. split; auto. intros z [<-|Hz]; auto. }
    destruct D as [D|(a & x & b & E & Ex & Ha)].
    + destruct IH as [IH|(r & w1 & x & w' & Er & H)]; [left|right].
      * intros w1 x [<-|Hw] Hx; eauto.
      * exists (S r), w1, x, w'. auto.
    + right. exists 0, w, x. eexists. split; auto. split; auto. exists a, b. split; [exact E|]. split; [|reflexivity].
      intros y Hy. apply Ha in Hy. destruct x, y, m; simpl in *; congruence.
Qed.

Lemma rev_case {A} (l : list A) : l = [] \/ exists q j, l = q ++ [j].
Proof. destruct l using rev_ind; eauto. Qed.

Lemma no_deadlock n jobs s : 0 < n -> reachable true n jobs s ->
  (exists s', sys_step true s s') \/
  (m_pc (s_master s) = MDone /\ forall w, In w (s_workers s) -> w_pc w = WDone) \/
  m_pc (s_master s) = MCrash \/ exists w, In w (s_workers s) /\ w_pc w = WCrash.
Proof.
  intros Hn H. pose proof (inv_reachable _ _ _ Hn H) as I. destruct s as [m ws pu po]. cbn [s_master s_workers] in *.
  (* either a worker or a message can move, or every worker is at rest *)
  assert (D : (exists s', sys_step true (Sys m ws pu po) s') \/ (exists w, In w ws /\ w_pc w = WCrash) \/
    forall r w, nth_error ws r = Some w -> w_out w = [] /\ ((w_pc w = WWait /\ w_pop w = []) \/ w_pc w = WDone)).
  { assert (X : forall l, (exists r w s', nth_error l r = Some w /\ (forall m ws pu po r', nth_error ws r' = Some w -> sys_step true (Sys m ws pu po) (s' m ws pu po r')))
       \/ (exists w, In w l /\ w_pc w = WCrash) \/ forall r w, nth_error l r = Some w -> w_out w = [] /\ ((w_pc w = WWait /\ w_pop w = []) \/ w_pc w = WDone)).
    { clear. induction l as [|w l IH]; [right; right; intros [|r]; discriminate|].
      assert (W : forall w' pu' po', wstep w w' pu' po' -> exists r w0 s', nth_error (w :: l) r = Some w0 /\
         (forall m ws pu po r', nth_error ws r' = Some w0 -> sys_step true (Sys m ws pu po) (s' m ws pu po r'))).
      { intros w' pu' po' Hw. exists 0, w, (fun m ws pu po r' => Sys m (lset ws r' w') (pu ++ pu') (po ++ po')). split; auto. intros. now apply (step_worker _ _ _ _ _ _ w). }
      destruct (w_out w) as [|msg out] eqn:Eo.
      2:{ left. exists 0, w. eexists (fun m ws pu po r' => Sys m (lset ws r' _) pu po). split; auto. intros. apply (step_arrive _ _ _ _ _ _ w); auto.
          apply (arrive true w [] msg out); auto. }
      destruct (w_pc w) eqn:Ew.
      - left. destruct (rev_case (w_queue w)) as [E|(q & j & E)]; [eapply W, w_pop_ask; auto|]. eapply W, (w_pop_local w q j []); auto.
      - left. eapply W, w_update_end; auto.
      - left. destruct (Nat.lt_ge_cases (w_max w) (length (w_queue w))) as [Hl|Hl]; [|eapply W, w_no_extra; auto].
        destruct (slice_to_neg (w_queue w) (w_target w)) as [e|] eqn:E1; [|eapply W, w_extra_error; auto].
        destruct (slice_from_neg (w_queue w) (w_target w)) as [k|] eqn:E2; [|eapply W, w_extra_error; auto]. eapply W, w_extra; eauto.
      - left. eapply W, (w_report w []); auto.
      - destruct (w_pop w) as [|x rest] eqn:Ep.
        + destruct IH as [(r & w0 & s' & IH)|[(w0 & IH)|IH]]; [left; exists (S r), w0, s'; exact IH|right; left; exists w0; simpl; tauto|].
          right. right. intros [|r] w0 Er; [injection Er as <-; auto|eauto].
        + left. destruct (rev_case (w_queue w ++ x)) as [E|(q & j & E)]; [eapply W, w_pop_end; eauto|eapply W, w_pop_get; eauto].
      - destruct IH as [(r & w0 & s' & IH)|[(w0 & IH)|IH]]; [left; exists (S r), w0, s'; exact IH|right; left; exists w0; simpl; tauto|].
        right. right. intros [|r] w0 Er; [injection Er as <-; auto|eauto].
      - right. left. exists w. simpl. auto. }
    destruct (X ws) as [(r & w & s' & Er & Hs)|[X'|X']]; auto. left. exists (s' m ws pu po r). auto. }
  destruct D as [D|[D|D]]; auto.
  assert (M : (exists m' ws', mstep m ws m' ws') \/ m_pc m = MDone \/ m_pc m = MCrash).
  { destruct I as [I1 I2 I3 I4]. destruct m as [pc q s z]. cbn [m_pc m_queue m_state] in *. destruct pc; auto; left.
    - simpl in I3. apply In_nth_error in I3. destruct I3 as (r & Er).
      destruct (nth_error ws r) as [w|] eqn:Ew. 2:{ apply nth_error_None in Ew. assert (r < length s) by (apply nth_error_Some; congruence). lia. }
      destruct (D r w Ew) as (Do & Dw). assert (w_arr w <> []).
      { specialize (I4 _ _ _ Ew Er). destruct I4; try congruence.
        - destruct Dw as [(? & _)|?]; congruence.
        - rewrite Do, app_nil_r in H4. rewrite H4. now destruct x.
        - destruct Dw as [(_ & ?)|?]; congruence. }
      eexists _, _. eapply m_probe; [eapply nth_error_In; eauto|auto].
    - destruct (find_arrived ws WAITING_FOR_POP) as [X|(r & w & x & w' & Er & Ex & Ht)]; [eexists _, _; now apply m_waiting_end|].
      destruct x; try discriminate. eexists _, _. eapply m_waiting; eauto.
    - destruct (find_arrived ws (PUSH_JOBS [])) as [X|(r & w & x & w' & Er & Ex & Ht)]; [eexists _, _; now apply m_push_end|].
      destruct x; try discriminate. eexists _, _. eapply m_push; eauto.
    - destruct (find_arrived ws (REPORT_QUEUE_SIZE 0)) as [X|(r & w & x & w' & Er & Ex & Ht)]; [eexists _, _; now apply m_size_end|].
      destruct x; try discriminate. eexists _, _. eapply m_size; eauto.
    - eexists _, _. apply m_no_updates.
    - destruct (nth_error ws r) as [w|] eqn:E; [|eexists _, _; now apply m_update_end]. eexists _, _. eapply m_update; eauto.
    - destruct q as [|j q]; [|eexists _, _; apply m_no_quit; left; discriminate].
      destruct (in_dec bool_dec true s); eexists _, _; [apply m_no_quit; auto|now apply m_quit].
    - destruct (nth_error ws r) as [w|] eqn:E; [|eexists _, _; now apply m_stopped]. eexists _, _. eapply m_stop; eauto.
    - destruct (Nat.eq_dec (num_waiting s) 0); [eexists _, _; now apply m_no_batch|]. eexists _, _. eapply m_batch; [lia|reflexivity].
    - destruct q as [|j q]; [eexists _, _; apply m_send_end; auto|]. destruct (in_dec bool_dec false s) as [Hf|Hf]; [|eexists _, _; apply m_send_end; auto].
      destruct batch as [k|k]; [|eexists _, _; apply m_send_error; [discriminate|auto|reflexivity]].
      destruct (index_false_some s Hf) as (r & Er). pose proof (index_false_spec _ _ Er) as Es.
      destruct (nth_error ws r) as [w|] eqn:Ew. 2:{ apply nth_error_None in Ew. assert (r < length s) by (apply nth_error_Some; congruence). lia. }
      eexists _, _. eapply m_send; [discriminate|reflexivity|reflexivity|eauto|eauto]. }
  destruct M as [(m' & ws' & Hm)|[M|M]]; auto.
  - left. eexists. apply step_master; eauto.
  - right. left. split; auto. intros w Hw. apply In_nth_error in Hw. destruct Hw as (r & Er). destruct I as [I1 I2 I3 I4].
    destruct (D r w Er) as (_ & [(E1 & E2)|]); auto. exfalso.
    destruct (nth_error (m_state m) r) as [b|] eqn:Eb. 2:{ apply nth_error_None in Eb. assert (r < length ws) by (apply nth_error_Some; congruence). lia. }
    specialize (I4 _ _ _ Er Eb). rewrite M in I3, I4. simpl in I3. destruct I3 as (_ & I3). destruct I4; try congruence.
    + subst b. apply nth_error_In in Eb. contradiction.
    + simpl in *. tauto.
Qed.
