(** * Model of [Code/Lin_Recur_Detect.py] and of the statuses of [Code/Halting_Lib.py]

    The protocol buffer messages are plain records; timing (IO.Timer) and printing are
    not modelled. *)
Require Import ZArith List Lia Bool Arith.
From Verif Require Import Spec_TM M_Turing_Machine M_Direct M_Tape M_Simulator M_Settings.
Import ListNotations.
Open Scope Z_scope.

(** ** Halting_Lib.py *)

(** a Python dict from states, in insertion order *)
Definition sdict := list (sstate * Z).
Fixpoint sd_set (k : sstate) (v : Z) (d : sdict) : sdict :=
  match d with
  | [] => [(k, v)]
  | (k', v') :: d => if sstate_eqb k k' then (k', v) :: d else (k', v') :: sd_set k v d
  end.

(** quasihalt_status: undecided, not quasihalting, quasihalting (steps, state) *)
Inductive quasi := QUndecided | QNot | QHalt (steps : Z) (state : sstate).

(** lines 180-186 *)
Definition quasi_pick (ignore : list sstate) (seen : sdict) : option sstate * Z :=
  fold_left (fun acc kv =>
    if existsb (sstate_eqb (fst kv)) ignore then acc
    else if snd kv >? snd acc then (Some (fst kv), snd kv) else acc) seen (None, -1).
(** lines 167-201 *)
Definition set_inf_recur (ignore : option (list sstate)) (seen : option sdict) : quasi :=
  match seen, ignore with
  | Some seen, Some ignore =>
    match quasi_pick ignore seen with
    | (None, _) => QNot
    | (Some q, k) => QHalt (k + 1) q
    end
  | _, _ => QUndecided
  end.

(** The part of BBStatus that is set: lines 134-164.  Setting a halt also says "not
    quasihalting" (line 152). *)
Inductive bbstatus :=
| BNone
| BHalt (steps : nat) (score : nat) (from_state : sstate) (from_symbol : nat)
| BInf (quasihalt : quasi).

(** ** Lin_Recur_Detect.py *)

(** lines 17-18 *)
Definition in_range (t : dtape) (pos : Z) : bool :=
  (dt_leftmost t <=? pos) && (pos <=? dt_rightmost t).

(** lines 20-29; the fuel covers both tapes *)
Fixpoint half_loop (fuel : nat) (t1 : dtape) (pos1 : Z) (t2 : dtape) (pos2 : Z) (dir_offset : Z) : option bool :=
  if in_range t1 pos1 || in_range t2 pos2 then
    match fuel with
    | O => None
    | S fuel =>
      match dt_read_pos t1 pos1, dt_read_pos t2 pos2 with
      | Some a, Some b =>
        if Nat.eqb a b then half_loop fuel t1 (pos1 + dir_offset) t2 (pos2 + dir_offset) dir_offset
        else Some false
      | _, _ => None
      end
    end
  else Some true.
Definition half_fuel (t1 : dtape) (pos1 : Z) (t2 : dtape) (pos2 : Z) (dir_offset : Z) : nat :=
  if dir_offset >? 0 then Z.to_nat (Z.max (dt_rightmost t1 - pos1) (dt_rightmost t2 - pos2) + 1)
  else Z.to_nat (Z.max (pos1 - dt_leftmost t1) (pos2 - dt_leftmost t2) + 1).
Definition are_half_tapes_equal (t1 : dtape) (pos1 : Z) (t2 : dtape) (pos2 : Z) (dir_offset : Z) : option bool :=
  half_loop (half_fuel t1 pos1 t2 pos2 dir_offset) t1 pos1 t2 pos2 dir_offset.

(** lines 31-36 *)
Fixpoint sections_loop (t1 t2 : dtape) (pos : Z) (count : nat) (offset : Z) : option bool :=
  match count with
  | O => Some true
  | S count =>
    match dt_read_pos t1 pos, dt_read_pos t2 (pos + offset) with
    | Some a, Some b => if Nat.eqb a b then sections_loop t1 t2 (pos + 1) count offset else Some false
    | _, _ => None
    end
  end.
Definition are_sections_equal (t1 t2 : dtape) (lo hi offset : Z) : option bool :=
  sections_loop t1 t2 lo (Z.to_nat (hi + 1 - lo)) offset.

(** lines 79-92, and again 126-143: has the configuration saved as [init_*] recurred? *)
Definition recur_test (init : dsim) (lo hi : Z) (sim : dsim) : option bool :=
  if sstate_eqb (ds_state sim) (ds_state init) then
    let offset := dt_position (ds_tape sim) - dt_position (ds_tape init) in
    if offset >? 0 then are_half_tapes_equal (ds_tape init) lo (ds_tape sim) (lo + offset) 1
    else if offset <? 0 then are_half_tapes_equal (ds_tape init) hi (ds_tape sim) (hi + offset) (-1)
    else are_sections_equal (ds_tape init) (ds_tape sim) lo hi offset
  else Some false.

Inductive inner_result :=
| IHalted (sim : dsim)
| ISuccess (sim : dsim) (used : list sstate) (seen : sdict)
| IReset (sim : dsim) (seen : sdict).

Section LinRecur.
  Variable M : machine nat sstate.

  (** lines 62-92 *)
  Fixpoint inner_loop (fuel : nat) (init : dsim) (lo hi : Z) (used : list sstate)
           (seen : sdict) (sim : dsim) : option inner_result :=
    if Nat.ltb (ds_step_num sim) (2 * ds_step_num init) then
      match fuel with
      | O => None
      | S fuel =>
        let seen := sd_set (ds_state sim) (Z.of_nat (ds_step_num sim)) seen in
        let used := ds_state sim :: used in
        match ds_step M sim with
        | None => None
        | Some sim =>
          if ds_halted sim then Some (IHalted sim)
          else
            let lo := Z.min lo (dt_position (ds_tape sim)) in
            let hi := Z.max hi (dt_position (ds_tape sim)) in
            match recur_test init lo hi sim with
            | None => None
            | Some true => Some (ISuccess sim used seen)
            | Some false => inner_loop fuel init lo hi used seen sim
            end
        end
      end
    else Some (IReset sim seen).

  (** LinRecurFilterResult: start_step, period, offset; [None] is success = False *)
  Record lr_result := LR { lr_start : nat; lr_period : nat; lr_offset : Z }.

  (** lines 49-107.  [max_steps = 0]: no limit; then only the fuel limits the loop.
      Exhausted fuel is [None], a raised exception is [Some None]. *)
  Fixpoint outer_loop (fuel : nat) (max_steps : nat) (seen : sdict) (sim : dsim)
    : option (option (option lr_result * bbstatus)) :=
    if Nat.eqb max_steps 0 || Nat.ltb (ds_step_num sim) max_steps then
      match fuel with
      | O => None
      | S fuel =>
        let p := dt_position (ds_tape sim) in
        match inner_loop (ds_step_num sim) sim p p [] seen sim with
        | None => Some None
        | Some (IHalted s) =>
          match ds_halt s with
          | Some (score, q, x) => Some (Some (None, BHalt (ds_step_num s) score q x))
          | None => Some None
          end
        | Some (ISuccess s used seen) =>
          Some (Some (Some (LR (ds_step_num sim) (ds_step_num s - ds_step_num sim)
                               (dt_position (ds_tape s) - p)),
                      BInf (set_inf_recur (Some used) (Some seen))))
        | Some (IReset s seen) => outer_loop fuel max_steps seen s
        end
      end
    else Some (Some (None, BNone)).

  (** lines 38-107.  With [max_steps = 1] the loop is not entered and line 104 reads the
      unbound variable steps_reset. *)
  Definition lin_detect_not_min (fuel max_steps : nat) : option (option (option lr_result * bbstatus)) :=
    let sim := ds_new M in
    let seen := [(ds_state sim, 0)] in
    match ds_step M sim with
    | None => Some None
    | Some sim => if Nat.eqb max_steps 1 then Some None else outer_loop fuel max_steps seen sim
    end.

  (** lines 120-124 *)
  Fixpoint run_period (n : nat) (lo hi : Z) (sim : dsim) : option (Z * Z * dsim) :=
    match n with
    | O => Some (lo, hi, sim)
    | S n =>
      match ds_step M sim with
      | None => None
      | Some sim => run_period n (Z.min lo (dt_position (ds_tape sim)))
                               (Z.max hi (dt_position (ds_tape sim))) sim
      end
    end.
  (** lines 110-143 *)
  Definition check_recur (init_step period : nat) : option bool :=
    match ds_seek M init_step (ds_new M) with
    | None => None
    | Some init =>
      let p := dt_position (ds_tape init) in
      match run_period period p p init with
      | None => None
      | Some (lo, hi, sim) => recur_test init lo hi sim
      end
    end.

  (** lines 149-160; the interval is halved, [high - low] iterations always suffice *)
  Fixpoint period_loop (fuel : nat) (period : nat) (low high : Z) : option Z :=
    if high - low >? 1 then
      match fuel with
      | O => None
      | S fuel =>
        let mid := (high + low) / 2 in
        match check_recur (Z.to_nat mid) period with
        | None => None
        | Some true => period_loop fuel period low mid
        | Some false => period_loop fuel period mid high
        end
      end
    else Some high.
  Definition period_search (init_step period : nat) : option Z :=
    period_loop (S init_step) period (-1) (Z.of_nat init_step).

  (** lines 163-178 *)
  Definition lr_filter (fuel max_steps : nat) (find_min : bool)
    : option (option (option lr_result * bbstatus)) :=
    match lin_detect_not_min fuel max_steps with
    | Some (Some (Some r, b)) =>
      if find_min then
        match period_search (lr_start r) (lr_period r) with
        | Some s => Some (Some (Some (LR (Z.to_nat s) (lr_period r) (lr_offset r)), b))
        | None => Some None
        end
      else Some (Some (Some r, b))
    | r => r
    end.
End LinRecur.

(** ** Macro_Simulator.py lines 200-208: the quasihalt status of an infinite verdict.
    The keys of states_last_seen and of inf_recur_states are states of the base machine. *)
Definition report_quasi (r : report) : quasi :=
  match r_inf r, r_seen r with
  | Some (_, states), Some seen =>
    set_inf_recur (option_map (map SRun) states) (Some (map (fun kv => (SRun (fst kv), snd kv)) seen))
  | _, _ => QUndecided
  end.
