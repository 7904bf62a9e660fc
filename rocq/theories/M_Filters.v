(** * Model of [Code/Reverse_Engineer_Filter.py] and [Code/Backtracking_Filter.py] *)
Require Import ZArith List Lia Bool Arith.
From Verif Require Import Spec_TM M_Turing_Machine.
Import ListNotations.

Definition addr := (nat * nat)%type.          (* (state, symbol) *)

(** [l[i].append(x)]; [None]: IndexError *)
Definition push {A} (l : list (list A)) (i : nat) (x : A) : option (list (list A)) :=
  match nth_error l i with Some r => Some (lset l i (r ++ [x])) | None => None end.

(** a [for] loop whose body may raise *)
Fixpoint ofold {A B} (f : B -> A -> option B) (l : list A) (b : B) : option B :=
  match l with
  | [] => Some b
  | a :: l => match f b a with Some b => ofold f l b | None => None end
  end.

(** the nested loops over states and symbols *)
Definition all_addrs (n m : nat) : list addr := list_prod (seq 0 n) (seq 0 m).

(** ** Reverse_Engineer_Filter *)

Definition btrans := (addr * transition nat sstate)%type.
Record stats := Stats { s_halts : list addr; s_to_state : list (list btrans); s_to_symbol : list (list btrans) }.

(** lines 29-36, the body of the loop *)
Definition stats_cell (tab : ttable) (s : stats) (a : addr) : option stats :=
  match simple_trans tab (snd a) (SRun (fst a)) with
  | None => None
  | Some trans =>
    match t_cond trans with
    | HALT | UNDEFINED => Some (Stats (s_halts s ++ [a]) (s_to_state s) (s_to_symbol s))
    | RUNNING =>
      match t_state trans with
      | SHalt => None     (* state -1 with condition RUNNING: no reader makes such a transition *)
      | SRun q =>
        match push (s_to_state s) q (a, trans), push (s_to_symbol s) (t_sym trans) (a, trans) with
        | Some ts, Some ty => Some (Stats (s_halts s) ts ty)
        | _, _ => None
        end
      end
    | _ => None           (* assert *)
    end
  end.

(** lines 21-37 *)
Definition get_stats (tab : ttable) (n m : nat) : option stats :=
  ofold (stats_cell tab) (all_addrs n m) (Stats [] (repeat [] n) (repeat [] m)).

(** lines 42-55 *)
Definition same_direction (s : stats) (halt_state halt_symbol : nat) : option bool :=
  match nth_error (s_to_state s) halt_state, nth_error (s_to_symbol s) halt_symbol with
  | Some (((_, trans) :: _) as ts), Some ty =>
    let prehalt_dir := t_dir trans in
    Some (forallb (fun bt : btrans => dir_eqb (t_dir (snd bt)) prehalt_dir) ts &&
          forallb (fun bt : btrans => dir_eqb (t_dir (snd bt)) prehalt_dir) ty)
  | _, _ => None
  end.

(** lines 39-71 *)
Definition cannot_reach_halt (s : stats) (h : addr) : option bool :=
  let '(halt_state, halt_symbol) := h in
  match nth_error (s_to_state s) halt_state with
  | None => None
  | Some ts =>
    if (Nat.eqb (length ts) 0 && negb (Nat.eqb halt_state 0 && Nat.eqb halt_symbol 0))%bool then Some true
    else if negb (Nat.eqb halt_symbol 0) then
      match nth_error (s_to_symbol s) halt_symbol with
      | None => None
      | Some ty => if Nat.eqb (length ty) 0 then Some true else same_direction s halt_state halt_symbol
      end
    else Some false
  end.

(** lines 73-83 *)
Fixpoint all_unreachable (s : stats) (l : list addr) : option bool :=
  match l with
  | [] => Some true
  | h :: l => match cannot_reach_halt s h with
              | None => None
              | Some false => Some false
              | Some true => all_unreachable s l
              end
  end.
Definition is_infinite (tab : ttable) (n m : nat) : option bool :=
  match get_stats tab n m with
  | None => None
  | Some s => all_unreachable s (s_halts s)
  end.

(** ** Backtracking_Filter

    A cell is the tuple (symbol_out, dir_out, state_out); state -1 is [SHalt].  Direction 0 is
    [L], 1 is [R], so [not d] is [opp d].  Direction 2 (stay) is not modelled.
    [backtrack] (lines 184-206) reads the table with [IO.parse_ttable], which does not exist. *)
Definition tcell := (nat * dir * sstate)%type.
Definition tuples := list (list tcell).
Definition tcell_at (tt : tuples) (q s : nat) : option tcell :=
  match nth_error tt q with Some row => nth_error row s | None => None end.

Record info := Info { i_halts : list addr; i_to_state : list (list (addr * tcell)); i_sides : list (bool * bool) }.
Definition side_set (d : dir) (p : bool * bool) : bool * bool := match d with L => (true, snd p) | R => (fst p, true) end.
Definition side_get (d : dir) (p : bool * bool) : bool := match d with L => fst p | R => snd p end.

(** lines 33-43 *)
Definition info_cell (tt : tuples) (i : info) (a : addr) : option info :=
  match tcell_at tt (fst a) (snd a) with
  | None => None
  | Some (symbol_out, dir_out, state_out) =>
    match state_out with
    | SHalt => Some (Info (i_halts i ++ [a]) (i_to_state i) (i_sides i))
    | SRun q =>
      match push (i_to_state i) q (a, (symbol_out, dir_out, state_out)), nth_error (i_sides i) symbol_out with
      | Some ts, Some p => Some (Info (i_halts i) ts (lset (i_sides i) symbol_out (side_set (opp dir_out) p)))
      | _, _ => None
      end
    end
  end.
(** lines 22-44; [len(TTable[0])] on an empty table is an IndexError *)
Definition get_info (tt : tuples) : option info :=
  match tt with
  | [] => None
  | row :: _ =>
    let n := length tt in
    let m := length row in
    if Nat.eqb m 0 then None else
    ofold (info_cell tt) (all_addrs n m)
      (Info [] (repeat [] n) (lset (repeat (false, false) m) 0 (true, true)))
  end.

(** class Partial_Config, lines 46-51 *)
Record pconfig := PC { p_l : list nat; p_r : list nat; p_cur : nat; p_st : nat }.
Definition p_side (d : dir) (p : pconfig) : list nat := match d with L => p_l p | R => p_r p end.
(** lines 56-62 *)
Definition applies (p : pconfig) (cell : tcell) : bool :=
  let '(symbol_out, dir_out, _) := cell in
  match p_side (opp dir_out) p with [] => true | x :: _ => Nat.eqb x symbol_out end.
(** lines 64-80 *)
Definition apply_trans (p : pconfig) (a : addr) (cell : tcell) : pconfig :=
  let '(_, dir_out, _) := cell in
  match dir_out with
  | L => PC (p_cur p :: p_l p) (tl (p_r p)) (snd a) (fst a)
  | R => PC (tl (p_l p)) (p_cur p :: p_r p) (snd a) (fst a)
  end.
(** lines 82-91 *)
Definition is_init_config (p : pconfig) : bool :=
  Nat.eqb (p_cur p) 0 && Nat.eqb (p_st p) 0 && forallb (Nat.eqb 0) (p_l p) && forallb (Nat.eqb 0) (p_r p).
(** lines 93-100; [None]: IndexError *)
Fixpoint side_possible (sides : list (bool * bool)) (d : dir) (l : list nat) : option bool :=
  match l with
  | [] => Some true
  | x :: l => match nth_error sides x with
              | None => None
              | Some p => if side_get d p then side_possible sides d l else Some false
              end
  end.
Definition is_possible_config (p : pconfig) (sides : list (bool * bool)) : option bool :=
  match side_possible sides L (p_l p) with
  | Some true => side_possible sides R (p_r p)
  | o => o
  end.

(** class BacktrackResult, lines 102-115 *)
Record bresult := BResult { b_success : bool; b_halted : bool; b_steps : nat; b_width : nat; b_nodes : nat }.
Definition merge (a b : bresult) : bresult :=
  BResult (b_success a && b_success b) (b_halted a || b_halted b) (Nat.max (b_steps a) (b_steps b))
          (Nat.max (b_width a) (b_width b)) (b_nodes a + b_nodes b).

(** the loops of lines 128-143: [Inl]: the early return, with the number of nodes seen *)
Inductive scan := Found (nodes : nat) | Prev (configs : list pconfig) (nodes : nat).
Fixpoint scan_trans (sides : list (bool * bool)) (p : pconfig) (l : list (addr * tcell)) (prev : list pconfig) (nodes : nat)
  : option scan :=
  match l with
  | [] => Some (Prev prev nodes)
  | (a, cell) :: l =>
    if applies p cell then
      let p' := apply_trans p a cell in
      if is_init_config p' then Some (Found nodes)
      else match is_possible_config p' sides with
           | None => None
           | Some b => scan_trans sides p l (if b then prev ++ [p'] else prev) nodes
           end
    else scan_trans sides p l prev nodes
  end.
Fixpoint scan_configs (i : info) (l : list pconfig) (prev : list pconfig) (nodes : nat) : option scan :=
  match l with
  | [] => Some (Prev prev nodes)
  | p :: l =>
    match nth_error (i_to_state i) (p_st p) with
    | None => None
    | Some ts =>
      match scan_trans (i_sides i) p ts prev (S nodes) with
      | Some (Prev prev nodes) => scan_configs i l prev nodes
      | o => o
      end
    end
  end.
(** lines 126-157; [turns] turns remain and [i] have been made *)
Fixpoint back_loop (inf : info) (max_width_allowed : nat) (turns i : nat) (pos : list pconfig) (width nodes : nat)
  : option bresult :=
  match turns with
  | O => Some (BResult false false i width nodes)
  | S turns =>
    match scan_configs inf pos [] nodes with
    | None => None
    | Some (Found nodes) => Some (BResult false true (S i) width nodes)
    | Some (Prev prev nodes) =>
      let width := Nat.max width (length prev) in
      if Nat.eqb (length prev) 0 then Some (BResult true false (S i) width nodes)
      else if Nat.ltb max_width_allowed width then Some (BResult false false (S i) width nodes)
      else back_loop inf max_width_allowed turns (S i) prev width nodes
    end
  end.
(** lines 117-157; with [steps] = 0 the variable [i] is unbound at the end *)
Definition backtrack_single_halt (inf : info) (h : addr) (steps max_width_allowed : nat) : option bresult :=
  match steps with
  | O => None
  | S _ => back_loop inf max_width_allowed steps 0 [PC [] [] (snd h) (fst h)] 1 0
  end.

(** lines 165-184, the loop over the halting cells *)
Fixpoint back_halts (tt : tuples) (inf : info) (steps max_width : nat) (halts : list addr) (combined : option bresult)
  : option (option bresult) :=
  match halts with
  | [] => Some combined
  | h :: halts =>
    match nth_error tt (fst h) with
    | None => None
    | Some row =>
      if existsb (fun c : tcell => match snd c with SRun q => Nat.eqb q (fst h) | SHalt => false end) row
      then Some (Some (BResult false false 0 0 0))
      else match backtrack_single_halt inf h steps max_width with
           | None => None
           | Some r =>
             if negb (b_success r) then Some (Some r)
             else back_halts tt inf steps max_width halts
                    (Some match combined with Some c => merge c r | None => r end)
           end
    end
  end.
(** lines 159-184; outer [None]: exception, inner [None]: the value None *)
Definition backtrack_ttable (tt : tuples) (steps max_width : nat) : option (option bresult) :=
  match get_info tt with
  | None => None
  | Some inf => back_halts tt inf steps max_width (i_halts inf) None
  end.
