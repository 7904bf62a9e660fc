(** * Property C45: the distributed work queue *)
Require Import ZArith List Lia Bool Arith Permutation.
From Verif Require Import M_Turing_Machine M_MPI P_Stream P_Quint P_MPI.
Import ListNotations.
Open Scope nat_scope.

(** Under every interleaving, every delay of messages (in order or not) and every result of the
    clocks, the jobs ever pushed are those that pop_job has returned together with those that still are
    in the master's queue, in a worker's queue or in a message, each as often as it was pushed. *)
Theorem C45_nothing_lost_or_duplicated fifo n jobs s : reachable fifo n jobs s ->
  Permutation (s_pushed s) (s_popped s ++ m_queue (s_master s) ++
    flat_map (fun w => w_queue w ++ pushes (w_arr w) ++ pushes (w_out w) ++ concat (w_pop w)) (s_workers s)).
Proof. exact (accounting fifo n jobs s). Qed.

(** If messages of one worker become visible to the master in the order of sending: a worker is told to
    stop, or has stopped, only when no job is left anywhere and no worker is working; every pushed job
    has then been handed out, once.  What is missing is the general case, in which it is false (below). *)
Theorem C45_stops_when_done_partial n jobs s w : reachable true n jobs s ->
  In w (s_workers s) -> w_pc w = WDone \/ In [] (w_pop w) ->
  jobs_left s = [] /\ (forall w', In w' (s_workers s) -> w_pc w' = WWait \/ w_pc w' = WDone) /\
  Permutation (s_pushed s) (s_popped s).
Proof.
  intros H Hw Hd.
  assert (Hn : 0 < n).
  { destruct n; [|lia]. exfalso. revert Hw. assert (X : s_workers s = []); [|rewrite X; auto].
    clear Hd. induction H as [|s s' Hs IH Hstep]; auto. destruct Hstep; cbn [s_workers] in *; subst ws.
    - reflexivity. - reflexivity.
    - inversion H; auto. }
  pose proof (inv_reachable _ _ _ Hn H) as I.
  assert (St : stopping (m_pc (s_master s))).
  { destruct I as [I1 I2 I3 I4]. apply In_nth_error in Hw. destruct Hw as (r & Er).
    destruct (nth_error (m_state (s_master s)) r) as [b|] eqn:Eb.
    2:{ apply nth_error_None in Eb. assert (r < length (s_workers s)) by (apply nth_error_Some; congruence). lia. }
    specialize (I4 _ _ _ Er Eb). destruct Hd as [Hd|Hd].
    - destruct I4; try congruence; destruct (m_pc (s_master s)); simpl in *; tauto.
    - destruct I4.
      1, 2, 3, 6: match goal with X : w_pop _ = [] |- _ => rewrite X in Hd; destruct Hd end.
      + rewrite H2 in Hd. destruct Hd as [|[]]; congruence.
      + destruct (m_pc (s_master s)); simpl in *; tauto. }
  destruct (stopped_state _ _ _ I St) as (X1 & X2).
  assert (E : jobs_left s = []).
  { unfold jobs_left. rewrite X1. simpl. apply flat_map_nil. intros w' Hw'. now apply X2. }
  split; auto. split; [intros w' Hw'; now apply X2|]. pose proof (accounting _ _ _ _ H) as A. rewrite E, app_nil_r in A. exact A.
Qed.

(** Also then, nobody waits for ever: as long as not all processes have ended and none has raised an
    exception, some process or message can move; and when all have ended, every job has been
    handed out. *)
Theorem C45_no_deadlock_partial n jobs s : 0 < n -> reachable true n jobs s ->
  (exists s', sys_step true s s') \/
  (m_pc (s_master s) = MDone /\ (forall w, In w (s_workers s) -> w_pc w = WDone) /\ Permutation (s_pushed s) (s_popped s)) \/
  m_pc (s_master s) = MCrash \/ (exists w, In w (s_workers s) /\ w_pc w = WCrash).
Proof.
  intros Hn H. destruct (no_deadlock n jobs s Hn H) as [X|[(X1 & X2)|[X|X]]]; auto.
  right. left. split; auto. split; auto. pose proof (inv_reachable _ _ _ Hn H) as I.
  destruct (s_workers s) as [|w ws] eqn:E.
  - destruct I as [I1 _ _ _]. simpl in I1. lia.
  - apply (C45_stops_when_done_partial n jobs s w); [exact H|rewrite E; simpl; auto|left; apply X2; simpl; auto].
Qed.

(** *** Runs *)
Lemma pop_last w a l : w_pc w = WRun -> w_queue w = a :: l -> wstep w (w_send w WRun (removelast (w_queue w)) []) [] [last (w_queue w) 0].
Proof. intros H E. apply w_pop_local; auto. apply app_removelast_last. rewrite E. discriminate. Qed.

Lemma arrives_out f w w' : arrives f w w' -> w_out w <> [].
Proof. intros [w0 a m b E _]. rewrite E. destruct a; discriminate. Qed.

Ltac tidy H := cbn -[Nat.div Nat.max] in H.
Ltac fwd H t := eapply reach_step in H; [|t]; tidy H.
Ltac wk H t := fwd H ltac:(eapply (step_worker _ _ _ _ _ 0); [reflexivity|t]).
Ltac ms H t := fwd H ltac:(eapply step_master; t).
Ltac none := intros ? ? [<-|[]]; simpl; intuition (subst; auto).

(** a run of two workers with three jobs, up to the end of the master's first round *)
Example C45_example : exists s, reachable true 2 [7; 8; 9] s /\ s_popped s = [9] /\ m_pc (s_master s) = MProbe /\ jobs_left s = [7; 8].
Proof.
  assert (H := reach_init true 2 [7; 8; 9]). unfold sys_init in H. tidy H.
  wk H ltac:(eapply w_pop_ask; reflexivity).
  fwd H ltac:(eapply (step_arrive _ _ _ _ _ 0); [reflexivity|eapply (arrive true _ []); reflexivity]).
  ms H ltac:(eapply m_probe; [left; reflexivity|discriminate]).
  ms H ltac:(eapply (m_waiting _ _ _ _ 0); [reflexivity|exists [], []; split; [reflexivity|split; [intros ? []|reflexivity]]]).
  ms H ltac:(eapply m_waiting_end; intros ? ? [<-|[<-|[]]] []).
  ms H ltac:(eapply m_push_end; intros ? ? [<-|[<-|[]]] []).
  ms H ltac:(eapply m_size_end; intros ? ? [<-|[<-|[]]] []).
  ms H ltac:(eapply m_no_updates).
  ms H ltac:(eapply m_no_quit; left; discriminate).
  ms H ltac:(eapply m_batch; [vm_compute; lia|reflexivity]).
  ms H ltac:(eapply m_send; [discriminate|reflexivity|reflexivity|reflexivity|reflexivity]).
  ms H ltac:(eapply m_send_end; left; reflexivity).
  wk H ltac:(eapply (w_pop_get _ _ _ [7; 8] 9); reflexivity).
  eexists. split; [exact H|]. repeat split.
Qed.

(** *** Refutations *)

(** With one worker and 38 jobs the master raises an exception in its first round: target_queue_size
    is a float, and so is then the bound of the slice that cuts off a batch.  Nothing moves any
    more, no job has been handed out, all are left. *)
Theorem C45_master_crash_refuted : exists s, reachable true 1 (seq 0 38) s /\ m_pc (s_master s) = MCrash /\
  s_popped s = [] /\ length (jobs_left s) = 38 /\ forall s', ~ sys_step true s s'.
Proof.
  assert (H := reach_init true 1 (seq 0 38)). unfold sys_init in H. tidy H.
  wk H ltac:(eapply w_pop_ask; reflexivity).
  fwd H ltac:(eapply (step_arrive _ _ _ _ _ 0); [reflexivity|eapply (arrive true _ []); reflexivity]).
  ms H ltac:(eapply m_probe; [left; reflexivity|discriminate]).
  ms H ltac:(eapply (m_waiting _ _ _ _ 0); [reflexivity|exists [], []; split; [reflexivity|split; [intros ? []|reflexivity]]]).
  ms H ltac:(eapply m_waiting_end; intros ? ? [<-|[]] []).
  ms H ltac:(eapply m_push_end; intros ? ? [<-|[]] []).
  ms H ltac:(eapply m_size_end; intros ? ? [<-|[]] []).
  ms H ltac:(eapply m_no_updates).
  ms H ltac:(eapply m_no_quit; left; discriminate).
  ms H ltac:(eapply m_batch; [vm_compute; lia|reflexivity]).
  ms H ltac:(eapply m_send_error; [discriminate|left; reflexivity|vm_compute; reflexivity]).
  eexists. split; [exact H|]. repeat split. intros s' Hs. inversion Hs; subst.
  - destruct r as [|[|r]]; try discriminate. match goal with X : nth_error _ 0 = Some _ |- _ => injection X as <- end.
    match goal with X : wstep _ _ _ _ |- _ => inversion X; subst; try discriminate end.
  - destruct r as [|[|r]]; try discriminate. match goal with X : nth_error _ 0 = Some _ |- _ => injection X as <- end.
    match goal with X : arrives _ _ _ |- _ => apply arrives_out in X; apply X; reflexivity end.
  - match goal with X : mstep _ _ _ _ |- _ => inversion X end.
Qed.

(** Likewise a worker, once it has received a new maximal queue size and has more jobs than that. *)
Theorem C45_worker_crash_refuted : exists s w, reachable true 1 [0] s /\ In w (s_workers s) /\ w_pc w = WCrash /\
  length (jobs_left s) = 26.
Proof.
  assert (H := reach_init true 1 [0]). unfold sys_init in H. tidy H.
  wk H ltac:(eapply w_pop_ask; reflexivity).
  fwd H ltac:(eapply (step_arrive _ _ _ _ _ 0); [reflexivity|eapply (arrive true _ []); reflexivity]).
  ms H ltac:(eapply m_probe; [left; reflexivity|discriminate]).
  ms H ltac:(eapply (m_waiting _ _ _ _ 0); [reflexivity|exists [], []; split; [reflexivity|split; [intros ? []|reflexivity]]]).
  ms H ltac:(eapply m_waiting_end; intros ? ? [<-|[]] []).
  ms H ltac:(eapply m_push_end; intros ? ? [<-|[]] []).
  ms H ltac:(eapply m_size_end; intros ? ? [<-|[]] []).
  ms H ltac:(eapply m_updates).
  ms H ltac:(eapply (m_update _ _ _ _ 0); [reflexivity|left; reflexivity]).
  ms H ltac:(eapply m_update_end; reflexivity).
  ms H ltac:(eapply m_no_quit; left; discriminate).
  ms H ltac:(eapply m_batch; [vm_compute; lia|reflexivity]).
  ms H ltac:(eapply m_send; [discriminate|vm_compute; reflexivity|vm_compute; reflexivity|reflexivity|reflexivity]).
  wk H ltac:(eapply (w_pop_get _ _ _ [] 0); reflexivity).
  wk H ltac:(eapply (w_push _ (seq 1 26)); reflexivity).
  wk H ltac:(eapply w_update; reflexivity).
  wk H ltac:(eapply w_update_end; reflexivity).
  wk H ltac:(eapply w_extra_error; [reflexivity|vm_compute; lia|left; reflexivity]).
  eexists _, _. split; [exact H|]. split; [left; reflexivity|]. split; reflexivity.
Qed.

(** If a message with another tag may be seen before one sent earlier by the same worker, as MPI
    allows: a worker sends 6 of its 31 jobs to the master, works off the others and asks for more; the
    master sees the request first and stops everybody, with 6 jobs under way. *)
Theorem C45_delayed_push_refuted : exists s, reachable false 1 [0] s /\ (forall w, In w (s_workers s) -> w_pc w = WDone) /\
  m_pc (s_master s) = MDone /\ length (jobs_left s) = 6.
Proof.
  assert (H := reach_init false 1 [0]). unfold sys_init in H. tidy H.
  wk H ltac:(eapply w_pop_ask; reflexivity).
  fwd H ltac:(eapply (step_arrive _ _ _ _ _ 0); [reflexivity|eapply (arrive false _ []); [reflexivity|intros ? []]]).
  ms H ltac:(eapply m_probe; [left; reflexivity|discriminate]).
  ms H ltac:(eapply (m_waiting _ _ _ _ 0); [reflexivity|exists [], []; split; [reflexivity|split; [intros ? []|reflexivity]]]).
  ms H ltac:(eapply m_waiting_end; intros ? ? [<-|[]] []).
  ms H ltac:(eapply m_push_end; intros ? ? [<-|[]] []).
  ms H ltac:(eapply m_size_end; intros ? ? [<-|[]] []).
  ms H ltac:(eapply m_no_updates).
  ms H ltac:(eapply m_no_quit; left; discriminate).
  ms H ltac:(eapply m_batch; [vm_compute; lia|reflexivity]).
  ms H ltac:(eapply m_send; [discriminate|vm_compute; reflexivity|vm_compute; reflexivity|reflexivity|reflexivity]).
  ms H ltac:(eapply m_send_end; left; reflexivity).
  wk H ltac:(eapply (w_pop_get _ _ _ [] 0); reflexivity).
  wk H ltac:(eapply (w_push _ (seq 1 31)); reflexivity).
  wk H ltac:(eapply w_update_end; reflexivity).
  wk H ltac:(eapply w_extra; [reflexivity|vm_compute; lia|reflexivity|reflexivity]).
  wk H ltac:(eapply (w_report _ []); [reflexivity|auto]).
  do 25 (wk H ltac:(eapply pop_last; reflexivity)).
  wk H ltac:(eapply w_pop_ask; reflexivity).
  fwd H ltac:(eapply (step_arrive _ _ _ _ _ 0); [reflexivity|eapply (arrive false _ [_]); [reflexivity|intros ? [<-|[]]; reflexivity]]).
  ms H ltac:(eapply m_probe; [left; reflexivity|discriminate]).
  ms H ltac:(eapply (m_waiting _ _ _ _ 0); [reflexivity|exists [], []; split; [reflexivity|split; [intros ? []|reflexivity]]]).
  ms H ltac:(eapply m_waiting_end; intros ? ? [<-|[]] []).
  ms H ltac:(eapply m_push_end; intros ? ? [<-|[]] []).
  ms H ltac:(eapply m_size_end; intros ? ? [<-|[]] []).
  ms H ltac:(eapply m_no_updates).
  ms H ltac:(eapply m_quit; [reflexivity|intros [|[]]; discriminate]).
  ms H ltac:(eapply (m_stop _ _ _ _ 0); reflexivity).
  ms H ltac:(eapply m_stopped; reflexivity).
  wk H ltac:(eapply w_pop_end; reflexivity).
  eexists. split; [exact H|]. split; [intros w [<-|[]]; reflexivity|]. split; reflexivity.
Qed.

Print Assumptions C45_nothing_lost_or_duplicated.
Print Assumptions C45_stops_when_done_partial.
Print Assumptions C45_no_deadlock_partial.
Print Assumptions C45_master_crash_refuted.
Print Assumptions C45_worker_crash_refuted.
Print Assumptions C45_delayed_push_refuted.
