(** * Model of [cpp/src/lin_recur.cpp], [lin_recur_enumerator.cpp] and [lr_enum.cpp]

    As in M_Cpp: integers do not overflow and [None] is undefined behaviour.  [max_steps] is at least 0 (a negative number acts as 0).
    Timing, messages and the statistics that are only printed (max_period_) are left out, and so is the compression of the files. *)
Require Import ZArith List Lia Bool Arith.
From Verif Require Import Spec_TM M_Turing_Machine M_Cpp.
Import ListNotations.
Open Scope nat_scope.

(** ** lin_recur.cpp *)

(** lines 13-27, are_half_tapes_equal; the fuel covers both tapes, [None] when it does not *)
Fixpoint cpp_half (fuel : nat) (t1 : vtape) (pos1 : Z) (t2 : vtape) (pos2 : Z) (dir_offset : Z) : option bool :=
  if (vt_in_range t1 pos1 || vt_in_range t2 pos2)%bool then
    match fuel with
    | O => None
    | S fuel => if Nat.eqb (vt_read_at t1 pos1) (vt_read_at t2 pos2)
                then cpp_half fuel t1 (pos1 + dir_offset)%Z t2 (pos2 + dir_offset)%Z dir_offset else Some false
    end
  else Some true.
(** a number of turns after which both positions are outside, if they move away *)
Definition cpp_half_fuel (t1 : vtape) (pos1 : Z) (t2 : vtape) (pos2 : Z) (dir_offset : Z) : nat :=
  if (dir_offset >? 0)%Z
  then Z.to_nat (Z.max (Z.of_nat (length (v_cells t1)) - v_start t1 - pos1) (Z.of_nat (length (v_cells t2)) - v_start t2 - pos2))
  else Z.to_nat (Z.max (pos1 + v_start t1) (pos2 + v_start t2) + 1).
Definition cpp_half_equal (t1 : vtape) (pos1 : Z) (t2 : vtape) (pos2 : Z) (dir_offset : Z) : option bool :=
  cpp_half (cpp_half_fuel t1 pos1 t2 pos2 dir_offset) t1 pos1 t2 pos2 dir_offset.
(** lines 29-38, are_sections_equal *)
Fixpoint cpp_sections (t1 t2 : vtape) (pos : Z) (count : nat) : bool :=
  match count with
  | O => true
  | S count => if Nat.eqb (vt_read_at t1 pos) (vt_read_at t2 pos) then cpp_sections t1 t2 (pos + 1)%Z count else false
  end.

(** lines 69-90: the test after each step *)
Definition cpp_recur (init : csim) (lo hi : Z) (sim : csim) : option bool :=
  if sstate_eqb (cs_state sim) (cs_state init) then
    let offset := (vt_position (cs_tape sim) - vt_position (cs_tape init))%Z in
    if (offset >? 0)%Z then cpp_half_equal (cs_tape init) lo (cs_tape sim) (lo + offset)%Z 1
    else if (offset <? 0)%Z then cpp_half_equal (cs_tape init) hi (cs_tape sim) (hi + offset)%Z (-1)
    else Some (cpp_sections (cs_tape init) (cs_tape sim) lo (Z.to_nat (hi + 1 - lo)))
  else Some false.

(** lin_recur.h lines 9-19.  [last]: [None] is a state and symbol never assigned; [ref]: [None] is the uninitialized init_step_num. *)
Inductive lr_res :=
| LRHalt (last : option (nat * nat)) (ref steps_run : nat)
| LRRec (start period : nat) (offset : Z) (steps_run : nat)
| LRNone (ref : option nat) (steps_run : nat).

Inductive lr_inner := InHalt (sim : csim) | InRec (sim : csim) | InReset (sim : csim).

(** lines 58-97 *)
Fixpoint cpp_inner (tm : cpp_tm) (fuel : nat) (init : csim) (lo hi : Z) (sim : csim) : option lr_inner :=
  if Nat.ltb (cs_steps sim) (2 * cs_steps init) then
    match fuel with
    | O => None
    | S fuel =>
      match cs_step tm sim with
      | None => None
      | Some sim =>
        if cs_halted sim then Some (InHalt sim)
        else
          let lo := Z.min lo (vt_position (cs_tape sim)) in
          let hi := Z.max hi (vt_position (cs_tape sim)) in
          match cpp_recur init lo hi sim with
          | None => None
          | Some true => Some (InRec sim)
          | Some false => cpp_inner tm fuel init lo hi sim
          end
      end
    end
  else Some (InReset sim).

(** lines 42-102; the number of steps grows in each turn, so [max_steps] turns are enough *)
Fixpoint cpp_outer (tm : cpp_tm) (max_steps : nat) (fuel : nat) (ref : option nat) (sim : csim) : option lr_res :=
  if Nat.ltb (cs_steps sim) max_steps then
    match fuel with
    | O => None
    | S fuel =>
      let p := vt_position (cs_tape sim) in
      match cpp_inner tm (cs_steps sim) sim p p sim with
      | None => None
      | Some (InHalt s) => Some (LRHalt (cs_last s) (cs_steps sim) (cs_steps s))
      | Some (InRec s) => Some (LRRec (cs_steps sim) (cs_steps s - cs_steps sim) (vt_position (cs_tape s) - vt_position (cs_tape sim)) (cs_steps s))
      | Some (InReset s) => cpp_outer tm max_steps fuel (Some (cs_steps sim)) s
      end
    end
  else Some (LRNone ref (cs_steps sim)).
Definition lr_detect (tm : cpp_tm) (max_steps : nat) : option lr_res :=
  match cs_step tm cs_init with
  | None => None
  | Some sim => cpp_outer tm max_steps max_steps None sim
  end.

(** ** lin_recur_enumerator.cpp *)

(** the lines of the three files *)
Record lr_files := LRFiles { f_halt : list (cpp_tm * nat); f_inf : list (cpp_tm * nat * Z * nat); f_unknown : list cpp_tm }.
Definition lr_init : lr_files := LRFiles [] [] [].

(** lines 100-139.  [only_unknown] is the field of that name; without Boost it is never assigned (lines 38-45). *)
Definition lr_filter_tm (only_unknown : bool) (max_steps : nat) (tm : cpp_tm) (e : lr_files) : option (option (nat * nat) * lr_files) :=
  match lr_detect tm max_steps with
  | None => None
  | Some (LRHalt last _ k) =>
    Some (last, if only_unknown then e else LRFiles (f_halt e ++ [(tm, k)]) (f_inf e) (f_unknown e))
  | Some (LRRec start period offset _) =>
    Some (None, if only_unknown then e else LRFiles (f_halt e) (f_inf e ++ [(tm, period, offset, start)]) (f_unknown e))
  | Some (LRNone _ _) => Some (None, LRFiles (f_halt e) (f_inf e) (f_unknown e ++ [tm]))
  end.

(** ** lr_enum.cpp lines 14-40; first_1rb is true (line 104) *)
Definition lr_root (n m : nat) (first_1rb : bool) : cpp_tm :=
  if first_1rb then child_tm (empty_tm n m) 0 0 (Lookup 1 R (SRun 1) false) else empty_tm n m.
Definition lr_enum (n m max_steps : nat) (allow_no_halt only_unknown : bool) (fuel : nat) : outcome lr_files :=
  cpp_enumerate (lr_filter_tm only_unknown max_steps) allow_no_halt fuel [lr_root n m true] lr_init.
