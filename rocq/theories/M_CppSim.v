(** * Model of [cpp/src/direct_sim.cpp], [direct_sim_all.cpp] and [lin_recur_main.cpp]

    As in M_CppIO: a file is a list of characters, integers do not overflow, messages and timing are left out. *)
Require Import ZArith List Lia Bool Arith Ascii String.
From Verif Require Import Spec_TM M_Turing_Machine M_IO M_Morphett M_Cpp M_CppLR M_CppIO.
Import ListNotations.
Open Scope nat_scope.

(** ** direct_sim_all.cpp *)

(** lines 17-19 and the text of the output file *)
Record sim_out := SimOut { so_text : str; so_total : nat; so_halt : nat; so_unknown : nat }.
(** lines 34-40, behind the machine that line 33 writes; a stream writes the decimal digits of a number, as str of Python *)
Definition sim_verdict (sim : csim) : str :=
  (if cs_halted sim then list_ascii_of_string " Halt " else list_ascii_of_string " Unknown ") ++ number_name (cs_steps sim).
Definition add_sim (text : str) (sim : csim) (s : sim_out) : sim_out :=
  SimOut (so_text s ++ text ++ sim_verdict sim ++ [newline]) (S (so_total s))
    (if cs_halted sim then S (so_halt s) else so_halt s) (if cs_halted sim then so_unknown s else S (so_unknown s)).
(** lines 23-42.  Every turn takes a line. *)
Fixpoint sim_lines (turns : nat) (file : str) (num_steps : nat) (s : sim_out) : prog sim_out :=
  match getline file, turns with
  | None, _ => PDone s
  | _, O => PFuel
  | Some (line, rest), S turns =>
    pbind (read_cpp line) (fun tm =>
      match cs_seek tm num_steps cs_init with
      | None => PUndefined
      | Some sim => pbind (write_cpp tm) (fun text => sim_lines turns rest num_steps (add_sim text sim s))
      end)
  end.
(** lines 15-49 *)
Definition direct_sim_all (file : str) (num_steps : nat) : prog sim_out := sim_lines (List.length file) file num_steps (SimOut [] 0 0 0).

(** ** turing_machine.cpp lines 175-183: the machine on a line.  No line is a null pointer, which the programs below use ([PUndefined]). *)
Fixpoint skip_lines (k : nat) (file : str) : str :=
  match k with O => file | S k => match getline file with Some (_, rest) => skip_lines k rest | None => [] end end.
Definition read_line_of (file : str) (line_num : nat) : prog cpp_tm :=
  match getline (skip_lines (line_num - 1) file) with Some (line, _) => read_cpp line | None => PUndefined end.

(** ** direct_sim.cpp lines 14-29: the number of steps, and whether the halting step is printed *)
Definition direct_sim (file : str) (line_num num_steps : nat) : prog (nat * bool) :=
  pbind (read_line_of file line_num) (fun tm =>
    match cs_seek tm num_steps cs_init with Some sim => PDone (cs_steps sim, cs_halted sim) | None => PUndefined end).

(** ** lin_recur_main.cpp lines 16-40, 52-55.  max_ref_config_step is printed (line 28): it is not initialized in [LRNone None]. *)
Definition lin_recur_main (file : str) (line_num log2_max_steps : nat) : prog lr_res :=
  pbind (read_line_of file line_num) (fun tm =>
    match lr_detect tm (2 ^ log2_max_steps) with
    | None | Some (LRNone None _) => PUndefined
    | Some r => PDone r
    end).
