(** * Model of [Code/Enumerate.py] with the simulation: Enumerator.run, expand_undefined_transition
    and add_result, and what is written into the output file

    The queue and the loop are in [M_Enum]; here a job is a table and its status comes from
    [M_Pipeline.run_options].  A record of the file is the stored machine with the status; the other
    fields of the message are not modelled.  For more than 7 states or 8 symbols write_tm changes the symbol
    of the undefined cells of the table it stores (TM_Record.py lines 99-101); that is not modelled. *)
Require Import ZArith List Bool Arith.
From Verif Require Import Spec_TM M_Turing_Machine M_IO M_Enum M_Filters M_Pipeline.
Import ListNotations.
Open Scope nat_scope.

(** lines 271-272 *)
Definition enum_options (o : options) : options :=
  {| o_reverse := o_reverse o; o_lin_steps := o_lin_steps o; o_lin_min := o_lin_min o; o_run_sim := o_run_sim o;
     o_block_size := o_block_size o; o_backsymbol := o_backsymbol o; o_ctl := o_ctl o; o_max_loops := o_max_loops o;
     o_tape_limit := o_tape_limit o; o_block_mult := o_block_mult o; o_max_block_mult := o_max_block_mult o;
     o_max_block_size := if o_max_block_size o =? 0 then 5 else o_max_block_size o;
     o_prover := o_prover o; o_max_configs := o_max_configs o; o_max_reps := o_max_reps o;
     o_block_limit := o_block_limit o; o_back_limit := o_back_limit o |}.

(** ** what is done with a machine, given the status that it is found to have *)
Section Job.
  Variables (n m : nat) (allow : bool).
  Variable run : ttable -> status.
  (** lines 156-158 *)
  Definition halt_cell (tab : ttable) : option (nat * nat) :=
    match run tab with Halting _ _ q a => Some (q, a) | _ => None end.
  (** lines 154-166 and 174-179; enum_children is only called for a machine that halts *)
  Definition expand_job (tab : ttable) : list ttable :=
    match halt_cell tab with
    | Some (i, j) => match enum_children tab n m allow i j with Some l => l | None => [] end
    | None => []
    end.
  (** lines 168-193 with TM_Record.py lines 150-152 and 172-180; [None]: a failed assertion of pack_tm *)
  Definition record_of (tab : ttable) : option (proto_tm * status) :=
    match run tab with
    | Halting k s q a => option_map (fun b => (Packed b, Halting k s q a)) (pack_tm (set_halt_trans tab q a) n m)
    | st => option_map (fun p => (p, st)) (write_tm tab n m)
    end.
  (** lines 111-117: a machine that was not run *)
  Definition unrun_record (tab : ttable) : option (proto_tm * status) :=
    option_map (fun p => (p, Unknown)) (write_tm tab n m).
End Job.

Section Enumerate.
  Variable faster : Z * Z -> Z * Z -> bool.
  Variable order : forall A, list A -> list A.
  Variable next : ttable -> nat.
  Variables (n m : nat) (allow : bool) (o : options) (fuel : nat).
  (** the machines for which the alarm goes off (Macro_Simulator.py lines 56-68): any; that it goes off
      while a status is being written is not modelled *)
  Variable late : ttable -> bool.

  (** lines 138-152 with Macro_Simulator.py lines 56-68: an exception leaves the status unknown *)
  Definition run_status (tab : ttable) : status :=
    if late tab then Unknown
    else match run_options faster order (next tab) tab n m (enum_options o) fuel with
         | Some st => st
         | None => Unknown
         end.

  (** main, lines 274-292 without [--infile] *)
  Definition enumerate_tms (shuffle : nat -> list ttable -> list ttable) (d : discipline) (first_1rb : bool)
             (num_enum rounds : nat) : option (nat * list ttable * list (option (proto_tm * status))) :=
    match blank_tm_enum n m first_1rb with
    | None => None
    | Some root =>
      enum_main ttable _ (expand_job n m allow run_status) (record_of n m run_status) (unrun_record n m) shuffle d num_enum rounds 0 [root] [] []
    end.
End Enumerate.
