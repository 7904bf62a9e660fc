(** * Model of [Code/Direct_Simulator.py]

    [blank_init_symbol] (lines 96-104) is not modelled: it only changes the
    initial symbol to the Python value None, for which no table lookup exists. *)
Require Import ZArith List Lia Bool Arith.
From Verif Require Import Spec_TM M_Turing_Machine.
Import ListNotations.
Open Scope Z_scope.

(** Python list / deque indexing: a negative index counts from the end, an
    index out of range raises IndexError. *)
Definition py_index (len i : Z) : option nat :=
  if (0 <=? i) && (i <? len) then Some (Z.to_nat i)
  else if (i <? 0) && (- len <=? i) then Some (Z.to_nat (i + len))
  else None.

Definition py_get {A} (l : list A) (i : Z) : option A :=
  match py_index (Z.of_nat (length l)) i with Some k => nth_error l k | None => None end.

Definition py_set {A} (l : list A) (i : Z) (v : A) : option (list A) :=
  match py_index (Z.of_nat (length l)) i with Some k => Some (lset l k v) | None => None end.

(** lines 18-28, class DirectTape *)
Record dtape := DTape {
  dt_init : nat; dt_cells : list nat; dt_index : Z; dt_position : Z }.

Definition dt_new (init_symbol : nat) : dtape := DTape init_symbol [init_symbol] 0 0.

(** lines 70-78 *)
Definition dt_pos2index (t : dtape) (pos : Z) : Z := pos - dt_position t + dt_index t.
Definition dt_index2pos (t : dtape) (i : Z) : Z := i - dt_index t + dt_position t.
Definition dt_index_default (t : dtape) (pos : option Z) : Z :=
  match pos with None => dt_index t | Some p => dt_pos2index t p end.

(** lines 32-37 *)
Definition dt_leftmost (t : dtape) : Z := dt_index2pos t 0.
Definition dt_rightmost (t : dtape) : Z := dt_index2pos t (Z.of_nat (length (dt_cells t)) - 1).

(** lines 81-91; the final assertion failing is [None] *)
Definition dt_expand (t : dtape) (new_pos : option Z) : option dtape :=
  let new_index := dt_index_default t new_pos in
  let len := Z.of_nat (length (dt_cells t)) in
  let t' :=
    if new_index <? 0 then
      DTape (dt_init t) (repeat (dt_init t) (Z.to_nat (- new_index)) ++ dt_cells t)
            (dt_index t + - new_index) (dt_position t)
    else if len <=? new_index then
      DTape (dt_init t) (dt_cells t ++ repeat (dt_init t) (Z.to_nat (new_index - len + 1)))
            (dt_index t) (dt_position t)
    else t in
  let i := dt_index_default t' new_pos in
  if (0 <=? i) && (i <? Z.of_nat (length (dt_cells t'))) then Some t' else None.

(** lines 39-43 *)
Definition dt_read (t : dtape) : option nat := py_get (dt_cells t) (dt_index t).
Definition dt_write (t : dtape) (symbol : nat) : option dtape :=
  match py_set (dt_cells t) (dt_index t) symbol with
  | Some l => Some (DTape (dt_init t) l (dt_index t) (dt_position t))
  | None => None
  end.

(** lines 45-52 *)
Definition dt_move (t : dtape) (d : dir) : option dtape :=
  dt_expand (match d with
             | R => DTape (dt_init t) (dt_cells t) (dt_index t + 1) (dt_position t + 1)
             | L => DTape (dt_init t) (dt_cells t) (dt_index t - 1) (dt_position t - 1)
             end) None.

(** lines 54-59 *)
Definition dt_read_pos (t : dtape) (pos : Z) : option nat :=
  let index := dt_pos2index t pos in
  if (0 <=? index) && (index <? Z.of_nat (length (dt_cells t)))
  then py_get (dt_cells t) index else Some (dt_init t).

(** lines 61-63 *)
Definition dt_write_pos (t : dtape) (symbol : nat) (pos : Z) : option dtape :=
  match dt_expand t (Some pos) with
  | None => None
  | Some t =>
    match py_set (dt_cells t) (dt_pos2index t pos) symbol with
    | Some l => Some (DTape (dt_init t) l (dt_index t) (dt_position t))
    | None => None
    end
  end.

(** lines 93-94 *)
Definition dt_count_nonzero (t : dtape) : nat :=
  length (filter (fun s => negb (Nat.eqb s (dt_init t))) (dt_cells t)).

(** ** DirectSimulator (lines 97-139) *)

(** [halt_score], [halt_from_state], [halt_from_symbol] are attributes that
    exist only after halting: [ds_halt = None] before. *)
Record dsim := DSim {
  ds_halted : bool; ds_state : sstate; ds_tape : dtape; ds_step_num : nat;
  ds_halt : option (nat * sstate * nat) }.

Definition ds_new (M : machine nat sstate) : dsim :=
  DSim false (m_init_st M) (dt_new (m_init_sym M)) 0 None.

(** lines 119-135; a Simple_Machine ignores the direction argument, R is a
    place holder. *)
Definition ds_step (M : machine nat sstate) (s : dsim) : option dsim :=
  if ds_halted s then Some s else
  match dt_read (ds_tape s) with
  | None => None
  | Some symbol_in =>
    match m_trans M symbol_in (ds_state s) R with
    | None => None
    | Some trans =>
      match dt_write (ds_tape s) (t_sym trans) with
      | None => None
      | Some t1 =>
        match dt_move t1 (t_dir trans) with
        | None => None
        | Some t2 =>
          if sstate_eqb (t_state trans) SHalt then
            Some (DSim true (t_state trans) t2 (S (ds_step_num s))
                       (Some (dt_count_nonzero t2, ds_state s, symbol_in)))
          else
            Some (DSim false (t_state trans) t2 (S (ds_step_num s)) (ds_halt s))
        end
      end
    end
  end.

(** lines 137-139: each iteration adds one to [step_num], so [target] iterations
    always suffice *)
Fixpoint ds_seek_loop (M : machine nat sstate) (target fuel : nat) (s : dsim) : option dsim :=
  if negb (ds_halted s) && Nat.ltb (ds_step_num s) target then
    match fuel with
    | O => None
    | S fuel => match ds_step M s with
                | Some s => ds_seek_loop M target fuel s
                | None => None
                end
    end
  else Some s.

Definition ds_seek (M : machine nat sstate) (target : nat) (s : dsim) : option dsim :=
  ds_seek_loop M target target s.
