(** * Model of the filter tools on the records of [Code/Enumerate.py]

    The undecided records that a run of Enumerate.py leaves are given to CTL_Filter.py, CPS_Filter.py and
    Reverse_Engineer_Filter.py (see M_Tools), which write them again with what they have found. *)
Require Import ZArith List Bool Arith.
From Verif Require Import Spec_TM M_Turing_Machine M_IO M_Enum M_LinRecur M_Filters M_Pipeline M_Enumerate M_Resume.
From Verif Require M_Tools.
Import ListNotations.
Open Scope nat_scope.

(** TM_Record.py lines 154-164, the record of a message whose status is unknown; the machine in the message
    is read when a tool asks for it.  The results of filters that have found nothing are not looked at. *)
Definition tool_record (r : proto_tm * status) : option M_Tools.tm_record :=
  match read_tm (fst r) with
  | Some (tab, n, m) => Some (M_Tools.fresh_record tab n m)
  | None => None
  end.
Fixpoint tool_records (file : list (proto_tm * status)) : option (list M_Tools.tm_record) :=
  match file with
  | [] => Some []
  | r :: file =>
    match tool_record r, tool_records file with
    | Some x, Some l => Some (x :: l)
    | _, _ => None
    end
  end.

(** the status that the fields of a message stand for (io.proto, HaltStatus and QuasihaltStatus;
    Enumerate.py reads them in lines 168-193) *)
Definition source_of (why : M_Tools.reason) : inf_source :=
  match why with
  | M_Tools.INF_REVERSE_ENGINEER => FromReverse
  | M_Tools.INF_LIN_RECUR => FromLinRecur
  | M_Tools.INF_CLOSED_GRAPH => FromClosedGraph
  | _ => FromCTL
  end.
Definition quasi_of (q : M_Tools.quasi_status) : quasi :=
  if M_Tools.q_decided q then
    if M_Tools.q_halting q then
      match M_Tools.q_steps q with Some k => QHalt k (SRun (M_Tools.q_state q)) | None => QUndecided end
    else QNot
  else QUndecided.
Definition tool_status (r : M_Tools.tm_record) : status :=
  let h := M_Tools.t_halt r in
  if M_Tools.h_decided h then
    if M_Tools.h_halting h then
      match M_Tools.h_steps h, M_Tools.h_score h with
      | Some k, Some sc => Halting k sc (M_Tools.h_state h) (M_Tools.h_symbol h)
      | _, _ => Unknown
      end
    else Infinite (source_of (M_Tools.h_reason h)) (quasi_of (M_Tools.t_quasi r))
  else Unknown.

(** Several tools, one after the other, on undecided records: the records in the last file, which keep the
    machine of their message.  [None]: a tool has stopped with an exception. *)
Definition filter_run (fuel : nat) ord_c ord_b (tools : list M_Tools.tool) (infile : list (proto_tm * status))
  : option (list (proto_tm * status)) :=
  match tool_records infile with
  | None => None
  | Some recs =>
    match M_Tools.filter_files fuel ord_c ord_b tools recs with
    | (out, true) => Some (map (fun rx => (fst (fst rx), tool_status (snd rx))) (combine infile out))
    | _ => None
    end
  end.
(** what the tools say about one table *)
Definition filter_status (fuel : nat) ord_c ord_b (tools : list M_Tools.tool) (n m : nat) (tab : ttable) : status :=
  match M_Tools.filter_files fuel ord_c ord_b tools [M_Tools.fresh_record tab n m] with
  | ([r], true) => tool_status r
  | _ => Unknown
  end.
