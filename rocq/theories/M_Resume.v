(** * Model of [Code/Enumerate.py] with [--infile]: an enumeration that goes on from records of a file

    What Enumerate.py says about [--num-enum]: "all unfinished machines from queue are also output so that
    you can continue with --infile".  A file is its list of records (C39 is about its bytes); a record is the
    stored machine with its status. *)
Require Import ZArith List Bool Arith.
From Verif Require Import Spec_TM M_Turing_Machine M_IO M_Enum M_Filters M_Pipeline M_Enumerate.
Import ListNotations.
Open Scope nat_scope.

(** A TM_Record (TM_Record.py lines 134-164) on the queue: the machine in its message, the table, the
    size and the option of its TM_Enum.  [None]: write_tm has raised. *)
Record job := Job { j_proto : option proto_tm; j_tab : ttable; j_states : nat; j_symbols : nat; j_allow : bool }.

(** lines 137-152, TM_Record(tm_enum = ...) *)
Definition new_job (n m : nat) (allow : bool) (tab : ttable) : job := Job (write_tm tab n m) tab n m allow.
(** Enumerate.py lines 195-203 and TM_Record.py lines 154-159: a record read from a file.  The field
    allow_no_halt of its message is set nowhere, so it is false. *)
Definition read_job (r : proto_tm * status) : option job :=
  match read_tm (fst r) with
  | Some (tab, n, m) => Some (Job (Some (fst r)) tab n m false)
  | None => None
  end.
Fixpoint read_jobs (file : list (proto_tm * status)) : option (list job) :=
  match file with
  | [] => Some []
  | r :: file =>
    match read_job r, read_jobs file with
    | Some j, Some js => Some (j :: js)
    | _, _ => None
    end
  end.

(** the records that a run leaves undecided (TM_Record.py lines 183-184) *)
Definition undecided (r : proto_tm * status) : bool := match snd r with Unknown => true | _ => false end.

Section Infile.
  Variable faster : Z * Z -> Z * Z -> bool.
  Variable order : forall A, list A -> list A.
  Variable next : ttable -> nat.
  Variables (o : options) (fuel : nat).
  Variable late : ttable -> bool.

  (** Enumerate.py lines 138-152 *)
  Definition job_status (j : job) : status :=
    run_status faster order next (j_states j) (j_symbols j) o fuel late (j_tab j).
  (** lines 154-166; copy.deepcopy keeps the option *)
  Definition job_children (j : job) : list job :=
    map (new_job (j_states j) (j_symbols j) (j_allow j))
        (expand_job (j_states j) (j_symbols j) (j_allow j)
           (run_status faster order next (j_states j) (j_symbols j) o fuel late) (j_tab j)).
  (** lines 168-193: a halting machine is stored again with the halt, the others as they are *)
  Definition job_record (j : job) : option (proto_tm * status) :=
    match job_status j with
    | Halting k s q a =>
      option_map (fun b => (Packed b, Halting k s q a)) (pack_tm (set_halt_trans (j_tab j) q a) (j_states j) (j_symbols j))
    | st => option_map (fun p => (p, st)) (j_proto j)
    end.
  Definition job_unrun (j : job) : option (proto_tm * status) := option_map (fun p => (p, Unknown)) (j_proto j).

  (** main, lines 274-292 with [--infile].  An unreadable record ends the program when it is run (the
      handler of line 147 reads it again); here it does so at the start. *)
  Definition enumerate_infile (shuffle : nat -> list job -> list job) (d : discipline) (num_enum rounds : nat)
             (infile : list (proto_tm * status)) : option (nat * list job * list (option (proto_tm * status))) :=
    match read_jobs infile with
    | None => None
    | Some jobs => enum_main job _ job_children job_record job_unrun shuffle d num_enum rounds 0 jobs [] []
    end.
End Infile.
