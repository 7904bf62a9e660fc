(** * Model of MPI_Work_Queue.py: the distributed work queue

    One master and a list of workers (the workers of rank 1, 2, ... are numbers 0, 1, ... here;
    the lists worker_state and worker_queue_size have no entry for rank 0, which is the master).
    Jobs are natural numbers.  The processes run concurrently: [sys_step] lets one of them do one
    communication or one local action.  Clocks are not modelled: every test of a clock can go either
    way.  Sends are buffered.  A message of a worker to the master is first in flight ([w_out]) and then
    arrived ([w_arr]); Probe, Iprobe and recv see arrived messages only.  The counters that only serve
    the statistics are left out. *)
Require Import ZArith List Bool Arith.
From Verif Require Import M_Turing_Machine.
Import ListNotations.
Open Scope nat_scope.

Definition job := nat.

(** Python numbers that occur here: integers, and floats in quarters ([NFloat x] is x / 4).  The
    division [/] of Python 3 gives a float even if it comes out even. *)
Inductive num := NInt (n : nat) | NFloat (quarters : nat).
Definition three_quarters (n : nat) : num := NFloat (3 * n).          (* n * 3 / 4, lines 134 and 264 *)
Definition quarters (x : num) : nat := match x with NInt n => 4 * n | NFloat q => q end.
(** min(a, b): the second one only if it is smaller *)
Definition num_min (a b : num) : num := if quarters b <? quarters a then b else a.
(** += 1, line 320 *)
Definition num_succ (x : num) : num := match x with NInt n => NInt (S n) | NFloat q => NFloat (q + 4) end.

(** the slices l[:n], l[n:], l[:-n] and l[-n:]; TypeError if the bound is a float *)
Definition slice_to {A} (l : list A) (x : num) : option (list A) :=
  match x with NInt n => Some (firstn n l) | NFloat _ => None end.
Definition slice_from {A} (l : list A) (x : num) : option (list A) :=
  match x with NInt n => Some (skipn n l) | NFloat _ => None end.
Definition slice_to_neg {A} (l : list A) (x : num) : option (list A) :=
  match x with NInt O => Some [] | NInt n => Some (firstn (length l - n) l) | NFloat _ => None end.
Definition slice_from_neg {A} (l : list A) (x : num) : option (list A) :=
  match x with NInt O => Some l | NInt n => Some (skipn (length l - n) l) | NFloat _ => None end.

(** lines 12-26 *)
Definition MIN_NUM_JOBS_PER_BATCH := 10.
Definition MAX_NUM_JOBS_PER_BATCH := 25.
Definition DEFAULT_MAX_LOCAL_JOBS := 30.
Definition DEFAULT_TARGET_LOCAL_JOBS := 25.

(** messages of a worker to the master, with their tags (lines 12-16) *)
Inductive wmsg := WAITING_FOR_POP | PUSH_JOBS (l : list job) | REPORT_QUEUE_SIZE (n : nat).
Definition same_tag (a b : wmsg) : bool :=
  match a, b with
  | WAITING_FOR_POP, WAITING_FOR_POP => true
  | PUSH_JOBS _, PUSH_JOBS _ => true
  | REPORT_QUEUE_SIZE _, REPORT_QUEUE_SIZE _ => true
  | _, _ => false
  end.

(** where a worker is: in the code that uses the queue; in push_jobs, before line 109, 110, 111; in
    pop_job, waiting in line 90; after pop_job returned None; stopped by an exception *)
Inductive wpc := WRun | WUpdate | WSend | WReport | WWait | WDone | WCrash.
Record worker := Worker {
  w_pc : wpc;
  w_queue : list job;                (* local_queue *)
  w_max : nat;                       (* max_queue_size *)
  w_target : num;                    (* target_queue_size *)
  w_out : list wmsg;                 (* its messages in flight *)
  w_arr : list wmsg;                 (* its messages arrived at the master and not yet received *)
  w_pop : list (list job);           (* POP_JOBS messages sent to it *)
  w_upd : list nat }.                (* UPDATE_MAX_QUEUE_SIZE messages sent to it *)
(** lines 33-42, __init__ *)
Definition worker_init : worker := Worker WRun [] DEFAULT_MAX_LOCAL_JOBS (NInt DEFAULT_TARGET_LOCAL_JOBS) [] [] [] [].

(** where the master is in run_master: before lines 233, 237, 247, 252, 261; in the loop of line 266
    with the next rank; before line 285; in the loop of line 286 with the next rank; before line 292; in the
    loop of line 308 with count, num_jobs_per_batch and increase_count (this one in quarters); after
    line 290; stopped by an exception *)
Inductive mpc := MProbe | MWaiting | MPush | MSizes | MUpdates | MUpdate (r : nat) (max_size : nat) | MQuit (target : num)
  | MStop (r : nat) | MBatch (target : num) | MSendLoop (count : nat) (batch : num) (increase : Z) | MDone | MCrash.
Record master := Master {
  m_pc : mpc;
  m_queue : list job;                (* master_queue *)
  m_state : list bool;               (* worker_state: false iff that worker is waiting *)
  m_sizes : list nat }.              (* worker_queue_size *)

(** [s_pushed] and [s_popped] record, for the statements only, the jobs ever pushed (the initial ones
    included) and those that pop_job has returned *)
Record sys := Sys { s_master : master; s_workers : list worker; s_pushed : list job; s_popped : list job }.
(** lines 225-231: the start, with [n] workers and the jobs that the master was given by push_job (lines 201-202) *)
Definition sys_init (n : nat) (jobs : list job) : sys :=
  Sys (Master MProbe jobs (repeat true n) (repeat 0 n)) (repeat worker_init n) jobs [].

(** ** Steps of a worker *)

(** appends a message *)
Definition w_send (w : worker) (pc : wpc) (q : list job) (msgs : list wmsg) : worker :=
  Worker pc q (w_max w) (w_target w) (w_out w ++ msgs) (w_arr w) (w_pop w) (w_upd w).

(** [wstep w w' pushed popped]: one step of a worker *)
Inductive wstep : worker -> worker -> list job -> list job -> Prop :=
  (* pop_job, lines 78-82; the report of lines 148-153 depends on the clock *)
  | w_pop_local w q j rep : w_pc w = WRun -> w_queue w = q ++ [j] -> rep = [] \/ rep = [REPORT_QUEUE_SIZE (length (w_queue w))] ->
      wstep w (w_send w WRun q rep) [] [j]
  (* lines 83-88 *)
  | w_pop_ask w : w_pc w = WRun -> w_queue w = [] -> wstep w (w_send w WWait [] [WAITING_FOR_POP]) [] []
  (* lines 90-96 *)
  | w_pop_get w l rest q j : w_pc w = WWait -> w_pop w = l :: rest -> w_queue w ++ l = q ++ [j] ->
      wstep w (Worker WRun q (w_max w) (w_target w) (w_out w) (w_arr w) rest (w_upd w)) [] [j]
  (* lines 90 and 97-101 *)
  | w_pop_end w l rest : w_pc w = WWait -> w_pop w = l :: rest -> w_queue w ++ l = [] ->
      wstep w (Worker WDone [] (w_max w) (w_target w) (w_out w) (w_arr w) rest (w_upd w)) [] []
  (* push_jobs, lines 106-108 (push_job, lines 103-104, is the case of one job) *)
  | w_push w jobs : w_pc w = WRun -> wstep w (w_send w WUpdate (w_queue w ++ jobs) []) jobs []
  (* _update_max_queue_size, lines 131-134; a message that has not arrived is not seen *)
  | w_update w x rest : w_pc w = WUpdate -> w_upd w = x :: rest ->
      wstep w (Worker WUpdate (w_queue w) x (three_quarters x) (w_out w) (w_arr w) (w_pop w) rest) [] []
  | w_update_end w : w_pc w = WUpdate -> wstep w (w_send w WSend (w_queue w) []) [] []
  (* _send_extra, lines 137-146 *)
  | w_extra w extra keep : w_pc w = WSend -> w_max w < length (w_queue w) ->
      slice_to_neg (w_queue w) (w_target w) = Some extra -> slice_from_neg (w_queue w) (w_target w) = Some keep ->
      wstep w (w_send w WReport keep [PUSH_JOBS extra]) [] []
  | w_extra_error w : w_pc w = WSend -> w_max w < length (w_queue w) ->
      slice_to_neg (w_queue w) (w_target w) = None \/ slice_from_neg (w_queue w) (w_target w) = None ->
      wstep w (w_send w WCrash (w_queue w) []) [] []
  | w_no_extra w : w_pc w = WSend -> length (w_queue w) <= w_max w -> wstep w (w_send w WReport (w_queue w) []) [] []
  (* _report_queue_size, lines 148-153 *)
  | w_report w rep : w_pc w = WReport -> rep = [] \/ rep = [REPORT_QUEUE_SIZE (length (w_queue w))] ->
      wstep w (w_send w WRun (w_queue w) rep) [] [].

(** A message arrives.  [fifo]: messages of one worker arrive in the order of sending; otherwise only
    those with the same tag do, which is all that MPI promises to a receiver that asks for one tag. *)
Inductive arrives (fifo : bool) : worker -> worker -> Prop :=
  | arrive w a m b : w_out w = a ++ m :: b ->
      (if fifo then a = [] else forall x, In x a -> same_tag x m = false) ->
      arrives fifo w (Worker (w_pc w) (w_queue w) (w_max w) (w_target w) (a ++ b) (w_arr w ++ [m]) (w_pop w) (w_upd w)).

(** ** Steps of the master *)

(** recv: takes the first arrived message with the tag of [m] *)
Definition takes (w : worker) (m : wmsg) (w' : worker) : Prop :=
  exists a b, w_arr w = a ++ m :: b /\ (forall x, In x a -> same_tag x m = false) /\
    w' = Worker (w_pc w) (w_queue w) (w_max w) (w_target w) (w_out w) (a ++ b) (w_pop w) (w_upd w).
(** Iprobe fails for the tag of [m] *)
Definition none_arrived (ws : list worker) (m : wmsg) : Prop :=
  forall w x, In w ws -> In x (w_arr w) -> same_tag x m = false.
Definition send_pop (w : worker) (l : list job) : worker :=
  Worker (w_pc w) (w_queue w) (w_max w) (w_target w) (w_out w) (w_arr w) (w_pop w ++ [l]) (w_upd w).
Definition send_upd (w : worker) (upd : list nat) : worker :=
  Worker (w_pc w) (w_queue w) (w_max w) (w_target w) (w_out w) (w_arr w) (w_pop w) upd.

(** worker_state.count(False) and worker_state.index(False) *)
Definition num_waiting (l : list bool) : nat := length (filter negb l).
Fixpoint index_false (l : list bool) : option nat :=
  match l with
  | [] => None
  | b :: l => if b then option_map S (index_false l) else Some 0
  end.
(** lines 262-263 *)
Definition new_max (queue : list job) (sizes : list nat) : nat :=
  Nat.max ((length queue + list_sum sizes) / S (length sizes)) MAX_NUM_JOBS_PER_BATCH.

Inductive mstep : master -> list worker -> master -> list worker -> Prop :=
  (* line 233 *)
  | m_probe q s z ws w : In w ws -> w_arr w <> [] -> mstep (Master MProbe q s z) ws (Master MWaiting q s z) ws
  (* lines 237-243 *)
  | m_waiting q s z ws r w w' : nth_error ws r = Some w -> takes w WAITING_FOR_POP w' ->
      mstep (Master MWaiting q s z) ws (Master MWaiting q (lset s r false) (lset z r 0)) (lset ws r w')
  | m_waiting_end q s z ws : none_arrived ws WAITING_FOR_POP -> mstep (Master MWaiting q s z) ws (Master MPush q s z) ws
  (* lines 247-248 *)
  | m_push q s z ws r w l w' : nth_error ws r = Some w -> takes w (PUSH_JOBS l) w' ->
      mstep (Master MPush q s z) ws (Master MPush (q ++ l) s z) (lset ws r w')
  | m_push_end q s z ws : none_arrived ws (PUSH_JOBS []) -> mstep (Master MPush q s z) ws (Master MSizes q s z) ws
  (* lines 252-257 *)
  | m_size q s z ws r w n w' : nth_error ws r = Some w -> takes w (REPORT_QUEUE_SIZE n) w' ->
      mstep (Master MSizes q s z) ws (Master MSizes q s (lset z r n)) (lset ws r w')
  | m_size_end q s z ws : none_arrived ws (REPORT_QUEUE_SIZE 0) -> mstep (Master MSizes q s z) ws (Master MUpdates q s z) ws
  (* lines 261-265, the clock decides *)
  | m_updates q s z ws : mstep (Master MUpdates q s z) ws (Master (MUpdate 0 (new_max q z)) q s z) ws
  | m_no_updates q s z ws : mstep (Master MUpdates q s z) ws (Master (MQuit (three_quarters (new_max q z))) q s z) ws
  (* lines 266-271; Cancel, lines 267-269, may or may not take back the last message *)
  | m_update q s z ws r x w upd : nth_error ws r = Some w -> upd = w_upd w \/ upd = removelast (w_upd w) ->
      mstep (Master (MUpdate r x) q s z) ws (Master (MUpdate (S r) x) q s z) (lset ws r (send_upd w (upd ++ [x])))
  | m_update_end q s z ws r x : nth_error ws r = None ->
      mstep (Master (MUpdate r x) q s z) ws (Master (MQuit (three_quarters x)) q s z) ws
  (* line 285 *)
  | m_quit q s z ws t : q = [] -> ~ In true s -> mstep (Master (MQuit t) q s z) ws (Master (MStop 0) q s z) ws
  | m_no_quit q s z ws t : q <> [] \/ In true s -> mstep (Master (MQuit t) q s z) ws (Master (MBatch t) q s z) ws
  (* lines 286-290 *)
  | m_stop q s z ws r w : nth_error ws r = Some w ->
      mstep (Master (MStop r) q s z) ws (Master (MStop (S r)) q s z) (lset ws r (send_pop w []))
  | m_stopped q s z ws r : nth_error ws r = None -> mstep (Master (MStop r) q s z) ws (Master MDone q s z) ws
  (* lines 292-307 *)
  | m_no_batch q s z ws t : num_waiting s = 0 -> mstep (Master (MBatch t) q s z) ws (Master MProbe q s z) ws
  | m_batch q s z ws t batch : 0 < num_waiting s ->
      batch = num_min (NInt (Nat.max MIN_NUM_JOBS_PER_BATCH (length q / num_waiting s))) t ->
      mstep (Master (MBatch t) q s z) ws
            (Master (MSendLoop 0 batch (Z.of_nat ((quarters batch + 4) * num_waiting s) - 4 * Z.of_nat (length q))%Z) q s z) ws
  (* lines 308-320 *)
  | m_send q s z ws c batch inc block rest r w : q <> [] -> slice_to q batch = Some block -> slice_from q batch = Some rest ->
      index_false s = Some r -> nth_error ws r = Some w ->
      mstep (Master (MSendLoop c batch inc) q s z) ws
            (Master (MSendLoop (S c) (if (4 * Z.of_nat (S c) =? inc)%Z then num_succ batch else batch) inc)
               rest (lset s r true) (lset z r (nth r z 0 + length block)))
            (lset ws r (send_pop w block))
  | m_send_error q s z ws c batch inc : q <> [] -> In false s -> slice_to q batch = None ->
      mstep (Master (MSendLoop c batch inc) q s z) ws (Master MCrash q s z) ws
  | m_send_end q s z ws c batch inc : q = [] \/ ~ In false s ->
      mstep (Master (MSendLoop c batch inc) q s z) ws (Master MProbe q s z) ws.

(** ** The system *)
Inductive sys_step (fifo : bool) : sys -> sys -> Prop :=
  | step_worker m ws pu po r w w' pushed popped : nth_error ws r = Some w -> wstep w w' pushed popped ->
      sys_step fifo (Sys m ws pu po) (Sys m (lset ws r w') (pu ++ pushed) (po ++ popped))
  | step_arrive m ws pu po r w w' : nth_error ws r = Some w -> arrives fifo w w' ->
      sys_step fifo (Sys m ws pu po) (Sys m (lset ws r w') pu po)
  | step_master m ws pu po m' ws' : mstep m ws m' ws' -> sys_step fifo (Sys m ws pu po) (Sys m' ws' pu po).

Inductive reachable (fifo : bool) (n : nat) (jobs : list job) : sys -> Prop :=
  | reach_init : reachable fifo n jobs (sys_init n jobs)
  | reach_step s s' : reachable fifo n jobs s -> sys_step fifo s s' -> reachable fifo n jobs s'.
