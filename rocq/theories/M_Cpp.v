(** * Model of the C++ programs: [cpp/src/turing_machine], [simulator], [enumerator], [lazy_beaver_enumerator] and [lb_enum]

    The integers of C++ do not overflow in the model, memory does not run out.  A reading or writing access to a vector outside of its
    bounds is undefined behaviour of C++: [None], and [Undefined] as outcome of a program.  The state -1 is [SHalt]; the moves +1 and -1
    are [R] and [L].  A line of a file is the machine that is written there; with 26 states or 10 symbols and more the programs exit when
    they write the first machine (turing_machine.cpp lines 86-87). *)
Require Import ZArith List Lia Bool Arith.
From Verif Require Import Spec_TM M_Turing_Machine.
Import ListNotations.
Open Scope nat_scope.

(** ** turing_machine.h, turing_machine.cpp *)

(** turing_machine.h lines 19-24 *)
Record lookup := Lookup { lk_symbol : nat; lk_move : dir; lk_state : sstate; lk_undecided : bool }.
(** turing_machine.h lines 56-63.  The name of a machine (for messages on the screen) is left out. *)
Record cpp_tm := CppTM {
  c_states : nat; c_symbols : nat; c_max_state : nat; c_max_symbol : nat; c_left_ok : bool; c_halts : Z; c_trans : list (list lookup) }.

(** turing_machine.h lines 26-28 *)
Definition c_lookup (tm : cpp_tm) (state symbol : nat) : option lookup :=
  match nth_error (c_trans tm) state with Some row => nth_error row symbol | None => None end.

(** turing_machine.cpp lines 11-20 *)
Definition empty_trans : lookup := Lookup 1 R SHalt true.
Definition empty_tm (n m : nat) : cpp_tm := CppTM n m 1 1 false (Z.of_nat (n * m)) (repeat (repeat empty_trans m) n).

(** turing_machine.cpp lines 23-48.  An empty table is undefined behaviour (line 42). *)
Definition all_lookups (t : list (list lookup)) : list lookup := concat t.
Definition table_tm (t : list (list lookup)) : option cpp_tm :=
  match t with
  | [] => None
  | row :: _ =>
    let max_state := fold_left (fun k x => Nat.max k (match lk_state x with SRun q => q | SHalt => 0 end)) (all_lookups t) 0 in
    let max_symbol := fold_left (fun k x => Nat.max k (lk_symbol x)) (all_lookups t) 0 in
    let num_halts := length (filter (fun x => match lk_state x with SHalt => true | SRun _ => false end) (all_lookups t)) in
    Some (CppTM (length t) (length row) (Nat.min (max_state + 1) (length t - 1)) (Nat.min (max_symbol + 1) (length row - 1)) true
            (Z.of_nat num_halts) t)
  end.

(** turing_machine.cpp lines 51-74.  The cell was looked up before, it is in the table. *)
Definition child_tm (old : cpp_tm) (last_state last_symbol : nat) (next : lookup) : cpp_tm :=
  CppTM (c_states old) (c_symbols old)
    (Nat.max (c_max_state old) (Nat.min (c_states old - 1) (match lk_state next with SRun q => S q | SHalt => 0 end)))
    (Nat.max (c_max_symbol old) (Nat.min (c_symbols old - 1) (S (lk_symbol next))))
    true (c_halts old - 1) (set_cell (c_trans old) last_state last_symbol next).

(** ** simulator.h, simulator.cpp *)

(** simulator.h lines 30-34, simulator.cpp lines 11-15 *)
Definition unit_size : nat := 100.
Record vtape := VTape { v_cells : list nat; v_start : Z; v_index : Z }.
Definition vt_init : vtape := VTape (repeat 0 unit_size) (Z.of_nat unit_size / 2) (Z.of_nat unit_size / 2).
Definition vt_get (t : vtape) (index : Z) : option nat := if (index <? 0)%Z then None else nth_error (v_cells t) (Z.to_nat index).
(** simulator.h line 15 *)
Definition vt_read (t : vtape) : option nat := vt_get t (v_index t).
(** simulator.h lines 22-25 *)
Definition vt_in_range (t : vtape) (pos : Z) : bool :=
  let index := (pos + v_start t)%Z in ((0 <=? index) && (index <? Z.of_nat (length (v_cells t))))%Z.
(** simulator.cpp lines 17-24 *)
Definition vt_read_at (t : vtape) (pos : Z) : nat :=
  if vt_in_range t pos then nth (Z.to_nat (pos + v_start t)) (v_cells t) 0 else 0.
(** simulator.h line 17 *)
Fixpoint list_set (l : list nat) (i : nat) (v : nat) : list nat :=
  match l, i with [], _ => [] | _ :: l, O => v :: l | x :: l, S i => x :: list_set l i v end.
Definition vt_write (t : vtape) (v : nat) : vtape := VTape (list_set (v_cells t) (Z.to_nat (v_index t)) v) (v_start t) (v_index t).
(** simulator.cpp lines 26-36 *)
Definition vt_move (t : vtape) (d : dir) : vtape :=
  let index := (v_index t + dz d)%Z in
  if (index <? 0)%Z then VTape (repeat 0 unit_size ++ v_cells t) (v_start t + Z.of_nat unit_size) (index + Z.of_nat unit_size)
  else if (Z.of_nat (length (v_cells t)) <=? index)%Z then VTape (v_cells t ++ repeat 0 unit_size) (v_start t) index
  else VTape (v_cells t) (v_start t) index.
(** simulator.h line 21 *)
Definition vt_position (t : vtape) : Z := (v_index t - v_start t)%Z.

(** simulator.h lines 55-62; [cs_last]: the last state and symbol, which are not initialized before the first step *)
Record csim := CSim { cs_tape : vtape; cs_state : sstate; cs_steps : nat; cs_last : option (nat * nat) }.
(** simulator.cpp lines 46-49 *)
Definition cs_init : csim := CSim vt_init (SRun 0) 0 None.
Definition cs_halted (s : csim) : bool := match cs_state s with SHalt => true | SRun _ => false end.
(** simulator.cpp lines 51-61 *)
Definition cs_step_safe (tm : cpp_tm) (s : csim) : option csim :=
  match cs_state s, vt_read (cs_tape s) with
  | SRun q, Some a =>
    match c_lookup tm q a with
    | Some x => Some (CSim (vt_move (vt_write (cs_tape s) (lk_symbol x)) (lk_move x)) (lk_state x) (S (cs_steps s)) (Some (q, a)))
    | None => None
    end
  | _, _ => None
  end.
(** simulator.cpp lines 63-67 *)
Definition cs_step (tm : cpp_tm) (s : csim) : option csim := if cs_halted s then Some s else cs_step_safe tm s.
(** simulator.cpp lines 69-73.  Every turn of the loop adds one to [step_num]: the loop makes at most [step_goal - step_num] turns. *)
Fixpoint cs_turns (tm : cpp_tm) (turns : nat) (s : csim) : option csim :=
  match turns with
  | O => Some s
  | S turns => if cs_halted s then Some s else match cs_step_safe tm s with Some s => cs_turns tm turns s | None => None end
  end.
Definition cs_seek (tm : cpp_tm) (step_goal : nat) (s : csim) : option csim := cs_turns tm (step_goal - cs_steps s) s.

(** ** enumerator.h, enumerator.cpp *)

(** enumerator.cpp lines 27-48: the machines in the order in which they are pushed *)
Definition expand_cpp (allow_no_halt : bool) (tm : cpp_tm) (last : nat * nat) : list cpp_tm :=
  if (allow_no_halt || (1 <? c_halts tm)%Z)%bool then
    flat_map (fun next_state => flat_map (fun next_symbol => flat_map (fun next_move =>
      if (dir_eqb next_move R || c_left_ok tm)%bool
      then [child_tm tm (fst last) (snd last) (Lookup next_symbol next_move (SRun next_state) false)] else [])
      [R; L]) (seq 0 (S (c_max_symbol tm)))) (seq 0 (S (c_max_state tm)))
  else [].

(** [Fuel]: the loop did not end within the number of turns that the model allows *)
Inductive outcome (A : Type) := Done (a : A) | Undefined | Fuel.
Arguments Done {A}. Arguments Undefined {A}. Arguments Fuel {A}.

Section Enumerate.
  Context {F : Type}.
  (** [filter_tm], a virtual function that changes the state of the enumerator; it gives the last state and symbol
      if the machine reached an undecided cell *)
  Variable filter_tm : cpp_tm -> F -> option (option (nat * nat) * F).
  Variable allow_no_halt : bool.
  (** enumerator.cpp lines 13-25; the top of the stack is the head of the list *)
  Fixpoint cpp_enumerate (fuel : nat) (todos : list cpp_tm) (s : F) : outcome F :=
    match todos with
    | [] => Done s
    | tm :: todos =>
      match fuel with
      | O => Fuel
      | S fuel =>
        match filter_tm tm s with
        | None => Undefined
        | Some (Some last, s) => cpp_enumerate fuel (rev (expand_cpp allow_no_halt tm last) ++ todos) s
        | Some (None, s) => cpp_enumerate fuel todos s
        end
      end
    end.
End Enumerate.

(** ** lazy_beaver_enumerator.h, lazy_beaver_enumerator.cpp *)

(** lazy_beaver_enumerator.h lines 33-45: the set of step counts, the lines of the two files, and the statistics *)
Record lazy_beaver := LazyBeaver {
  lb_realized : list nat; lb_witness : list (nat * cpp_tm); lb_nonhalt : list cpp_tm; lb_total : nat; lb_halt : nat }.
Definition lb_init : lazy_beaver := LazyBeaver [] [] [] 0 0.

(** lazy_beaver_enumerator.cpp lines 38-44.  The set is finite: one number more than it has elements is enough. *)
Fixpoint min_missing_from (set : list nat) (fuel i : nat) : nat :=
  match fuel with
  | O => i
  | S fuel => if existsb (Nat.eqb i) set then min_missing_from set fuel (S i) else i
  end.
Definition min_missing (set : list nat) : nat := min_missing_from set (S (length set)) 1.

(** lazy_beaver_enumerator.cpp lines 53-88 *)
Definition lb_filter (max_steps : nat) (tm : cpp_tm) (e : lazy_beaver) : option (option (nat * nat) * lazy_beaver) :=
  match cs_seek tm max_steps cs_init with
  | None => None
  | Some sim =>
    let k := cs_steps sim in
    if cs_halted sim then
      Some (cs_last sim,
            if existsb (Nat.eqb k) (lb_realized e) then LazyBeaver (lb_realized e) (lb_witness e) (lb_nonhalt e) (S (lb_total e)) (S (lb_halt e))
            else LazyBeaver (k :: lb_realized e) (lb_witness e ++ [(k, tm)]) (lb_nonhalt e) (S (lb_total e)) (S (lb_halt e)))
    else Some (None, LazyBeaver (lb_realized e) (lb_witness e) (lb_nonhalt e ++ [tm]) (S (lb_total e)) (lb_halt e))
  end.

(** ** lb_enum.cpp lines 15-37: the enumerator at the end, and the number that is printed, if one is printed *)
Definition lb_enum (n m max_steps fuel : nat) : outcome (lazy_beaver * option nat) :=
  match cpp_enumerate (lb_filter max_steps) false fuel [empty_tm n m] lb_init with
  | Done e => let lb := min_missing (lb_realized e) in Done (e, if lb <? max_steps then Some lb else None)
  | Undefined => Undefined
  | Fuel => Fuel
  end.
