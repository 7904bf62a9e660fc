(** * Model of [Code/TM_Enum.py], [Code/Enumerate.py], [Code/Work_Queue.py], [Code/TNF.py],
    [Code/Adjacent.py], [Code/Permute.py] and [Code/LNF.py]

    Python exceptions are [None].  A [TM_Enum] is a table with its numbers of states and
    symbols; [copy.deepcopy] is the identity on values. *)
Require Import ZArith List Lia Bool Arith Ascii.
From Verif Require Import Spec_TM M_Turing_Machine M_Direct M_IO.
Import ListNotations.
Open Scope nat_scope.

(** ** TM_Enum.py *)

(** lines 6-15, blank_tm_enum *)
Definition blank_tm_enum (n m : nat) (first_1rb : bool) : option ttable :=
  tm_from_quintuples (if first_1rb then [Quint 0 0 (Some 1) R (SRun 1)] else []) n m.

(** the transition object of lines 27-32 *)
Definition running_trans (state_in symbol_out : nat) (dir_out : dir) (state_out : nat) : transition nat sstate :=
  Trans RUNNING [] symbol_out (SRun state_out) dir_out 1 [(state_in, 0)].
(** lines 26-32, set_trans; the cell is one of the table (no IndexError) *)
Definition set_trans (tab : ttable) (state_in symbol_in symbol_out : nat) (dir_out : dir) (state_out : nat) : ttable :=
  set_cell tab state_in symbol_in (running_trans state_in symbol_out dir_out state_out).

(** lines 34-41, set_halt_trans *)
Definition halt_trans (state_in symbol_in : nat) : transition nat sstate :=
  Trans HALT [DCell symbol_in state_in] 1 SHalt R 1 [(state_in, 0)].
Definition set_halt_trans (tab : ttable) (state_in symbol_in : nat) : ttable :=
  set_cell tab state_in symbol_in (halt_trans state_in symbol_in).

(** the transitions visited by the two loops of lines 51-61 *)
Definition grid (n m : nat) : list (nat * nat) := list_prod (seq 0 n) (seq 0 m).
Definition all_trans (tab : ttable) (n m : nat) : option (list (transition nat sstate)) :=
  otraverse (map (fun a => simple_trans tab (snd a) (SRun (fst a))) (grid n m)).
Definition is_undefined (t : transition nat sstate) : bool := match t_cond t with UNDEFINED => true | _ => false end.

(** lines 46-61: the four metrics.  [max(max_state, -1) = max_state] *)
Definition max_state_of (ts : list (transition nat sstate)) : nat :=
  fold_left (fun k t => if is_undefined t then k
                        else Nat.max k (match t_state t with SRun q => q | SHalt => 0 end)) ts 0.
Definition max_symbol_of (ts : list (transition nat sstate)) : nat :=
  fold_left (fun k t => if is_undefined t then k else Nat.max k (t_sym t)) ts 0.
Definition num_undefined (ts : list (transition nat sstate)) : nat := length (filter is_undefined ts).
Definition a_trans_defined (ts : list (transition nat sstate)) : bool := existsb (fun t => negb (is_undefined t)) ts.

(** lines 63-86, the choices of the three nested loops *)
Definition child_choices (n m : nat) (ts : list (transition nat sstate)) : list (nat * nat * dir) :=
  let dirs := if a_trans_defined ts then [L; R] else [R] in
  let num_states := Nat.min n (max_state_of ts + 2) in
  let num_symbols := Nat.min m (max_symbol_of ts + 2) in
  flat_map (fun q => flat_map (fun w => map (fun d => (q, w, d)) dirs) (seq 0 num_symbols)) (seq 0 num_states).
(** lines 43-86, enum_children: the list of the tables yielded *)
Definition enum_children (tab : ttable) (n m : nat) (allow_no_halt : bool) (state_in symbol_in : nat) : option (list ttable) :=
  match all_trans tab n m with
  | None => None
  | Some ts =>
    Some (if (allow_no_halt || Nat.ltb 1 (num_undefined ts))%bool
          then map (fun c => let '(q, w, d) := c in set_trans tab state_in symbol_in w d q) (child_choices n m ts)
          else [])
  end.

(** ** TNF.py *)

(** line 18-19, the dict comprehension; [None] is KeyError *)
Fixpoint old2new_from (k : nat) (order : list nat) (old : nat) : option nat :=
  match order with
  | [] => None
  | a :: order => match old2new_from (S k) order old with
                  | Some v => Some v
                  | None => if Nat.eqb a old then Some k else None
                  end
  end.
Definition old2new (order : list nat) (old : nat) : option nat := old2new_from 0 order old.
Definition cell_at (tab : ttable) (i j : nat) : option (transition nat sstate) :=
  match nth_error tab i with Some row => nth_error row j | None => None end.

(** lines 24-51: the new transition.  [states_last_seen = None] is the empty dict *)
Definition permute_trans (state_order symbol_order : list nat) (swap_dirs : bool) (old : transition nat sstate)
  : option (transition nat sstate) :=
  match t_cond old with
  | RUNNING =>
    match old2new symbol_order (t_sym old), t_state old with
    | Some w, SRun q =>
      match old2new state_order q with
      | Some q' => Some (Trans RUNNING (t_details old) w (SRun q') (if swap_dirs then opp (t_dir old) else t_dir old) (t_steps old) [])
      | None => None
      end
    | _, _ => None
    end
  | HALT | UNDEFINED => Some (Trans (t_cond old) [] 1 SHalt R 1 [])
  | _ => None
  end.
(** lines 17-52; the assignment of a cell that is not in the table is IndexError *)
Fixpoint permute_cells (old : ttable) (state_order symbol_order : list nat) (swap_dirs : bool)
         (cells : list ((nat * nat) * (nat * nat))) (new : ttable) : option ttable :=
  match cells with
  | [] => Some new
  | ((i, i'), (j, j')) :: cells =>
    match cell_at old i' j', cell_at new i j with
    | Some t, Some _ =>
      match permute_trans state_order symbol_order swap_dirs t with
      | Some t' => permute_cells old state_order symbol_order swap_dirs cells (set_cell new i j t')
      | None => None
      end
    | _, _ => None
    end
  end.
Definition enumerate {A} (l : list A) : list (nat * A) := combine (seq 0 (length l)) l.
Definition permute_table (tab : ttable) (state_order symbol_order : list nat) (swap_dirs : bool) : option ttable :=
  permute_cells tab state_order symbol_order swap_dirs
    (list_prod (enumerate state_order) (enumerate symbol_order)) tab.

(** lines 64-81, the loop of to_TNF.  [Some None] is [return None], the outer [None] an
    exception.  The sets are lists without repetition. *)
Definition take (x : option nat) (order unordered : list nat) : list nat * list nat :=
  match x with
  | Some x => if existsb (Nat.eqb x) unordered then (order ++ [x], filter (fun y => negb (Nat.eqb y x)) unordered)
              else (order, unordered)
  | None => (order, unordered)
  end.
Definition take_last (p : list nat * list nat) : list nat * list nat :=
  match p with
  | (order, [x]) => (order ++ [x], [])
  | _ => p
  end.
Definition nonempty (l : list nat) : bool := match l with [] => false | _ => true end.
Fixpoint tnf_loop (M : machine nat sstate) (max_steps fuel : nat) (s : dsim)
         (states symbols : list nat * list nat) : option (option (list nat * list nat)) :=
  if (nonempty (snd states) || nonempty (snd symbols))%bool then
    if (Nat.ltb max_steps (ds_step_num s) || ds_halted s)%bool then Some None else
    match fuel with
    | O => None
    | S fuel =>
      match ds_step M s with
      | None => None
      | Some s =>
        match dt_read (ds_tape s) with
        | None => None
        | Some cur_symb =>
          let states := take (match ds_state s with SRun q => Some q | SHalt => None end) (fst states) (snd states) in
          let symbols := take (Some cur_symb) (fst symbols) (snd symbols) in
          tnf_loop M max_steps fuel s (take_last states) (take_last symbols)
        end
      end
    end
  else Some (Some (fst states, fst symbols)).
(** lines 54-83; [step_num] grows by one in each iteration, so [max_steps + 1] iterations suffice *)
Definition to_TNF (tab : ttable) (n m max_steps : nat) : option (option ttable) :=
  match cell_at tab 0 0 with
  | None => None
  | Some t =>
    let swap_dirs := dir_eqb (t_dir t) L in
    let M := simple_machine tab in
    match tnf_loop M max_steps (S max_steps) (ds_new M) ([0], seq 1 (n - 1)) ([0], seq 1 (m - 1)) with
    | None => None
    | Some None => Some None
    | Some (Some (state_order, symbol_order)) =>
      match permute_table tab state_order symbol_order swap_dirs with
      | Some tab' => Some (Some tab')
      | None => None
      end
    end
  end.

(** ** Adjacent.py *)

(** Macro/Turing_Machine.py lines 82-88, Transition.equals *)
Definition trans_equals (a b : transition nat sstate) : bool :=
  (cond_eqb (t_cond a) (t_cond b) && Nat.eqb (t_sym a) (t_sym b) && sstate_eqb (t_state a) (t_state b) &&
   dir_eqb (t_dir a) (t_dir b))%bool.
(** lines 16-29, enum_cell.  One object is changed and yielded again and again; the list has its
    value at each yield (the callers are done with it before they ask for the next) *)
Definition enum_cell (tab : ttable) (n m i j : nat) : option (list ttable) :=
  match cell_at tab i j with
  | None => None
  | Some old =>
    Some (map (fun t => set_cell tab i j t)
           (filter (fun t => negb (trans_equals old t))
              (flat_map (fun q => flat_map (fun w => map (fun d => running_trans i w d q) [L; R]) (seq 0 m)) (seq 0 n))))
  end.
(** lines 31-37, adjacent *)
Definition adjacent (tab : ttable) (n m : nat) : option (list ttable) :=
  option_map (@concat _)
    (otraverse (map (fun a => match cell_at tab (fst a) (snd a) with
                              | Some t => match t_cond t with RUNNING => enum_cell tab n m (fst a) (snd a) | _ => Some [] end
                              | None => None
                              end) (grid n m))).

(** ** Permute.py, lines 21-31, without the call of try_tnf *)
Definition swapped_order (n k : nat) : list nat := lset (lset (seq 0 n) k 0) 0 k.
Definition start_state_table (tab : ttable) (n m new_start_state : nat) : option ttable :=
  permute_table tab (swapped_order n new_start_state) (seq 0 m) false.
(** lines 13-18, try_tnf *)
Definition try_tnf (tab : ttable) (n m tnf_max_steps : nat) : option ttable :=
  match to_TNF tab n m tnf_max_steps with
  | None => None
  | Some (Some t) => Some t
  | Some None => Some tab
  end.
Definition permute_start_state (tab : ttable) (n m tnf_max_steps : nat) : option (list ttable) :=
  otraverse (map (fun k => match start_state_table tab n m k with
                           | Some t => try_tnf t n m tnf_max_steps
                           | None => None
                           end) (seq 0 n)).

(** ** LNF.py *)

(** Python's order of strings *)
Fixpoint str_ltb (a b : str) : bool :=
  match a, b with
  | _, [] => false
  | [], _ :: _ => true
  | x :: a, y :: b => if Ascii.eqb x y then str_ltb a b else Nat.ltb (nat_of_ascii x) (nat_of_ascii y)
  end.
(** lines 31-37, iter_perms; the recursion is on the length *)
Fixpoint iter_perms_from (fuel : nat) (xs : list nat) : list (list nat) :=
  match fuel with
  | O => [xs]
  | S fuel =>
    match xs with
    | [] | [_] => [xs]
    | _ => flat_map (fun i => map (cons (nth i xs 0)) (iter_perms_from fuel (firstn i xs ++ skipn (S i) xs))) (seq 0 (length xs))
    end
  end.
Definition iter_perms (xs : list nat) : list (list nat) := iter_perms_from (length xs) xs.
(** a machine with its table, init_state and init_symbol *)
Record lnf_tm := LnfTM { lt_tab : ttable; lt_state : nat; lt_symbol : nat }.
(** [list.index(0)] *)
Fixpoint index0 (l : list nat) : option nat :=
  match l with
  | [] => None
  | a :: l => if Nat.eqb a 0 then Some 0 else option_map S (index0 l)
  end.
(** lines 13-28, permute *)
Definition lnf_permute (tab : ttable) (state_order symbol_order : list nat) : option lnf_tm :=
  match state_order with
  | [] => None
  | i :: _ =>
    match cell_at tab i 0 with
    | None => None
    | Some t =>
      match permute_table tab state_order symbol_order (dir_eqb (t_dir t) R), index0 state_order, index0 symbol_order with
      | Some tab', Some a, Some b => Some (LnfTM tab' a b)
      | _, _, _ => None
      end
    end
  end.
(** lines 40-53, brute_lnf *)
Fixpoint lnf_loop (tab : ttable) (n m : nat) (orders : list (list nat * list nat)) (best_str : str) (best : lnf_tm)
  : option lnf_tm :=
  match orders with
  | [] => Some best
  | (so, syo) :: orders =>
    match lnf_permute tab so syo with
    | None => None
    | Some p =>
      match ttable_str (lt_tab p) n m with
      | None => None
      | Some s => if str_ltb s best_str then lnf_loop tab n m orders s p else lnf_loop tab n m orders best_str best
      end
    end
  end.
Definition brute_lnf (tab : ttable) (n m : nat) : option lnf_tm :=
  match ttable_str tab n m with
  | None => None
  | Some s => lnf_loop tab n m (list_prod (iter_perms (seq 0 n)) (iter_perms (seq 0 m))) s (LnfTM tab 0 0)
  end.

(** ** Enumerate.py and Work_Queue.py *)

Section Enumerator.
  Variables (J Rec : Type).
  (** [run] (lines 138-152) with the children that [add_result] (lines 168-193) pushes for a record
      that has been run and found to halt ([[]] for all others), the record that is then written,
      and the record written for a job that was not run *)
  Variables (expand : J -> list J) (written : J -> Rec) (unrun : J -> Rec).
  (** random.shuffle (line 164): the result may depend on the time *)
  Variable shuffle : nat -> list J -> list J.

  (** Work_Queue.py: [pop_job] of the LIFO (lines 33-39) and FIFO (lines 74-78) queues;
      [push_job] and [push_jobs] append at the end *)
  Inductive discipline := LIFO | FIFO.
  Definition pop_job (d : discipline) (queue : list J) : option (J * list J) :=
    match d with
    | LIFO => match rev queue with [] => None | j :: r => Some (j, rev r) end
    | FIFO => match queue with [] => None | j :: r => Some (j, r) end
    end.

  (** lines 84-109, with the records written in order.  [fuel] bounds the number of rounds *)
  Fixpoint enum_loop (d : discipline) (limit : option nat) (fuel tm_num : nat) (queue : list J) (out : list Rec)
    : option (nat * list J * list Rec) :=
    if match limit with Some k => Nat.leb k tm_num | None => false end then Some (tm_num, queue, out) else
    match pop_job d queue with
    | None => Some (tm_num, queue, out)
    | Some (j, queue) =>
      match fuel with
      | O => None
      | S fuel => enum_loop d limit fuel (S tm_num) (queue ++ shuffle tm_num (expand j)) (out ++ [written j])
      end
    end.
  (** lines 111-117; a job that was not run is [is_unknown_halting], so nothing is pushed *)
  Fixpoint drain (d : discipline) (fuel tm_num : nat) (queue : list J) (out : list Rec) : nat * list Rec :=
    match fuel, pop_job d queue with
    | S fuel, Some (j, queue) => drain d fuel (S tm_num) queue (out ++ [unrun j])
    | _, _ => (tm_num, out)
    end.
  (** lines 79-117, continue_enum.  [options.num_enum]: 0 and None both mean no limit *)
  Definition continue_enum (d : discipline) (num_enum fuel tm_num : nat) (queue : list J) (out : list Rec)
    : option (nat * list J * list Rec) :=
    let limit := if Nat.eqb num_enum 0 then None else Some num_enum in
    match enum_loop d limit fuel tm_num queue out with
    | None => None
    | Some (k, queue, out) =>
      match limit with
      | None => Some (k, queue, out)
      | Some _ => let '(k, out) := drain d (length queue) k queue out in Some (k, [], out)
      end
    end.
  (** main, lines 290-292: the machines of the input, one after the other *)
  Fixpoint enum_main (d : discipline) (num_enum fuel tm_num : nat) (inputs : list J) (queue : list J) (out : list Rec)
    : option (nat * list J * list Rec) :=
    match inputs with
    | [] => Some (tm_num, queue, out)
    | j :: inputs =>
      match continue_enum d num_enum fuel tm_num (queue ++ [j]) out with
      | Some (k, queue, out) => enum_main d num_enum fuel k inputs queue out
      | None => None
      end
    end.
End Enumerator.
