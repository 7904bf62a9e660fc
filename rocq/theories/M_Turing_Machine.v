(** * Model of [Code/Macro/Turing_Machine.py]

    Python exceptions (IndexError, failed assertions) are the value [None].
    Only the directions LEFT and RIGHT are modelled; STAY (line 32) is never
    produced by any reader or enumerator ([parse_tm] asserts [dir in [0,1]]). *)
Require Import ZArith List Lia Bool Arith.
From Verif Require Import Spec_TM.
Import ListNotations.
Open Scope Z_scope.

(** Turing_Machine.py:34-39 *)
Inductive cond := RUNNING | HALT | INF_REPEAT | UNDEFINED | GAVE_UP.

Definition cond_eqb (a b : cond) : bool :=
  match a, b with
  | RUNNING, RUNNING | HALT, HALT | INF_REPEAT, INF_REPEAT
  | UNDEFINED, UNDEFINED | GAVE_UP, GAVE_UP => true
  | _, _ => false
  end.

(** Entries of [condition_details] (heterogeneous Python list): the pair
    (symbol_in, state_in) put there by Turing_Machine.py:307,327, positions
    appended at 129,149, loop count at 143. *)
Inductive detail :=
| DCell (symbol_in state_in : nat)
| DPos (p : Z)
| DLoops (n : nat).

(** Python dict with integer keys and values, in insertion order. *)
Definition dict := list (nat * nat).

Fixpoint dict_get (k : nat) (d : dict) : option nat :=
  match d with
  | [] => None
  | (k', v) :: d => if Nat.eqb k k' then Some v else dict_get k d
  end.

Fixpoint dict_set (k v : nat) (d : dict) : dict :=
  match d with
  | [] => [(k, v)]
  | (k', v') :: d => if Nat.eqb k k' then (k', v) :: d else (k', v') :: dict_set k v d
  end.

(** Turing_Machine.py:49-62, class Transition *)
Record transition (Sym St : Type) := Trans {
  t_cond : cond;
  t_details : list detail;
  t_sym : Sym;
  t_state : St;
  t_dir : dir;
  t_steps : nat;
  t_seen : dict }.
Arguments Trans {Sym St}.
Arguments t_cond {Sym St}. Arguments t_details {Sym St}. Arguments t_sym {Sym St}.
Arguments t_state {Sym St}. Arguments t_dir {Sym St}. Arguments t_steps {Sym St}.
Arguments t_seen {Sym St}.

(** The interface of class Turing_Machine (lines 166-183) used by the
    simulators: [get_trans_object], equality of symbols and states, initial
    symbol and state ([init_dir] is RIGHT for every machine: lines 266, 366, 460),
    [eval_symbol] and [eval_state]. *)
Record machine (Sym St : Type) := Machine {
  m_trans : Sym -> St -> dir -> option (transition Sym St);
  m_sym_eqb : Sym -> Sym -> bool;
  m_st_eqb : St -> St -> bool;
  m_init_sym : Sym;
  m_init_st : St;
  m_eval_sym : Sym -> nat;
  m_eval_st : St -> nat }.
Arguments Machine {Sym St}.
Arguments m_trans {Sym St}. Arguments m_sym_eqb {Sym St}. Arguments m_st_eqb {Sym St}.
Arguments m_init_sym {Sym St}. Arguments m_init_st {Sym St}.
Arguments m_eval_sym {Sym St}. Arguments m_eval_st {Sym St}.

(** ** sim_limited (lines 93-163) *)

Fixpoint list_eqb {A} (eqb : A -> A -> bool) (x y : list A) : bool :=
  match x, y with
  | [], [] => true
  | a :: x, b :: y => eqb a b && list_eqb eqb x y
  | _, _ => false
  end.

(** [tape[pos]] for a position known to be non-negative *)
Definition tget {A} (tape : list A) (pos : Z) : option A :=
  if pos <? 0 then None else nth_error tape (Z.to_nat pos).

(** [tape[pos] = v] *)
Fixpoint lset {A} (tape : list A) (i : nat) (v : A) : list A :=
  match tape, i with
  | [], _ => []
  | _ :: tape, O => v :: tape
  | a :: tape, S i => a :: lset tape i v
  end.

(** [old_config] of line 106: (state, dir, pos, tape) *)
Record wcfg (Sym St : Type) := WCfg {
  w_state : St; w_dir : dir; w_pos : Z; w_tape : list Sym }.
Arguments WCfg {Sym St}.
Arguments w_state {Sym St}. Arguments w_dir {Sym St}.
Arguments w_pos {Sym St}. Arguments w_tape {Sym St}.

Definition wcfg_eqb {Sym St} (M : machine Sym St) (a b : wcfg Sym St) : bool :=
  m_st_eqb M (w_state a) (w_state b) && dir_eqb (w_dir a) (w_dir b) &&
  (w_pos a =? w_pos b) && list_eqb (m_sym_eqb M) (w_tape a) (w_tape b).

(** lines 114-115: [states_last_seen[state] = num_base_steps + base_last_seen] *)
Definition merge_seen (seen : dict) (num_base_steps : nat) (new : dict) : dict :=
  fold_left (fun acc kv => dict_set (fst kv) (num_base_steps + snd kv)%nat acc) new seen.

(** the [while True] loop, lines 111-155.  The loop leaves at the latest when
    [num_loops > max_loops], hence [fuel = S max_loops] is never exhausted
    (theorem [sim_limited_fuel] in P_SimLimited). *)
Fixpoint sim_loop {Sym St} (M : machine Sym St) (max_loops fuel : nat)
         (w : wcfg Sym St) (num_base_steps num_loops : nat) (seen : dict)
         (old_config : option (wcfg Sym St)) (next_config_save : nat)
  : option (transition (list Sym) St) :=
  match fuel with
  | O => None
  | S fuel =>
    match tget (w_tape w) (w_pos w) with
    | None => None
    | Some symbol =>
      match m_trans M symbol (w_state w) (w_dir w) with
      | None => None
      | Some trans =>
        let seen := merge_seen seen num_base_steps (t_seen trans) in
        let num_base_steps := (num_base_steps + t_steps trans)%nat in
        let num_loops := S num_loops in
        let tape := lset (w_tape w) (Z.to_nat (w_pos w)) (t_sym trans) in
        let pos := w_pos w + dz (t_dir trans) in
        let w' := WCfg (t_state trans) (t_dir trans) pos tape in
        let result c details :=
            Some (Trans c details tape (t_state trans) (t_dir trans)
                        num_base_steps seen) in
        if match old_config with Some o => wcfg_eqb M w' o | None => false end then
          result INF_REPEAT [DPos pos]
        else
          let save := Nat.leb next_config_save num_loops in
          let old_config := if save then Some w' else old_config in
          let next_config_save :=
              if save then (next_config_save * 2)%nat else next_config_save in
          if Nat.ltb max_loops num_loops then
            result GAVE_UP [DLoops num_loops]
          else if negb (cond_eqb (t_cond trans) RUNNING) then
            result (t_cond trans) (t_details trans ++ [DPos pos])
          else if negb ((0 <=? pos) && (pos <? Z.of_nat (length tape))) then
            result RUNNING []
          else
            sim_loop M max_loops fuel w' num_base_steps num_loops seen
                     old_config next_config_save
      end
    end
  end.

(** lines 93-108 and 157-163 *)
Definition sim_limited {Sym St} (M : machine Sym St) (state : St) (start_tape : list Sym)
           (pos : Z) (d : dir) (max_loops : nat) : option (transition (list Sym) St) :=
  sim_loop M max_loops (S max_loops) (WCfg state d pos start_tape) 0 0 [] None 128.

(** ** Simple_Machine (lines 244-293) *)

(** [Simple_Machine_State(n)]; the only negative value used is -1 = halted. *)
Inductive sstate := SRun (q : nat) | SHalt.

Definition sstate_eqb (a b : sstate) : bool :=
  match a, b with
  | SRun x, SRun y => Nat.eqb x y
  | SHalt, SHalt => true
  | _, _ => false
  end.

Definition trans_row := list (transition nat sstate).
Definition ttable := list trans_row.

(** line 271: [self.trans_table[state_in][symbol_in]]; Python index -1 is the
    last row. *)
Definition simple_trans (tab : ttable) (symbol_in : nat) (state_in : sstate)
  : option (transition nat sstate) :=
  let row := match state_in with
             | SRun q => nth_error tab q
             | SHalt => match rev tab with [] => None | r :: _ => Some r end
             end in
  match row with Some r => nth_error r symbol_in | None => None end.

(** lines 255-290 *)
Definition simple_machine (tab : ttable) : machine nat sstate :=
  Machine (fun symbol_in state_in _ => simple_trans tab symbol_in state_in)
          Nat.eqb sstate_eqb 0%nat (SRun 0)
          (fun symbol => if Nat.eqb symbol 0 then 0%nat else 1%nat)
          (fun _ => 0%nat).

(** ** tm_from_quintuples (lines 295-335)

    [states] and [symbols] are [range(n)], [range(m)] in every reader but
    Morphett's; [states.index(x)] is then the identity with a ValueError out of
    range.  A quintuple whose [symbol_out] is None is skipped (line 299). *)
Record quint := Quint {
  q_state_in : nat; q_symbol_in : nat;
  q_symbol_out : option nat; q_dir_out : dir; q_state_out : sstate }.

Definition set_cell {A} (t : list (list A)) (i j : nat) (v : A) : list (list A) :=
  match nth_error t i with
  | Some row => lset t i (lset row j v)
  | None => t
  end.

(** lines 298-319: one quintuple *)
Definition add_quint (n m : nat) (tab : list (list (option (transition nat sstate))))
           (q : quint) : option (list (list (option (transition nat sstate)))) :=
  match q_symbol_out q with
  | None => Some tab
  | Some symbol_out =>
    if (Nat.ltb (q_state_in q) n && Nat.ltb (q_symbol_in q) m && Nat.ltb symbol_out m)%bool
    then
      match q_state_out q with
      | SHalt =>
        Some (set_cell tab (q_state_in q) (q_symbol_in q)
          (Some (Trans HALT [DCell (q_symbol_in q) (q_state_in q)] symbol_out SHalt
                       (q_dir_out q) 1 [(q_state_in q, 0%nat)])))
      | SRun s =>
        if Nat.ltb s n then
          Some (set_cell tab (q_state_in q) (q_symbol_in q)
            (Some (Trans RUNNING [] symbol_out (SRun s)
                         (q_dir_out q) 1 [(q_state_in q, 0%nat)])))
        else None
      end
    else None
  end.

Fixpoint add_quints n m tab qs :=
  match qs with
  | [] => Some tab
  | q :: qs => match add_quint n m tab q with
               | Some tab => add_quints n m tab qs
               | None => None
               end
  end.

(** lines 325-333 *)
Definition undefined_trans (symbol_in state_in : nat) : transition nat sstate :=
  Trans UNDEFINED [DCell symbol_in state_in] 1%nat SHalt R 1 [(state_in, 0%nat)].

(** [for i in range(...)] comprehension with index *)
Fixpoint mapi_from {A B} (f : nat -> A -> B) (i : nat) (l : list A) : list B :=
  match l with
  | [] => []
  | a :: l => f i a :: mapi_from f (S i) l
  end.
Definition mapi {A B} (f : nat -> A -> B) (l : list A) : list B := mapi_from f 0%nat l.

Definition fill_undefined (tab : list (list (option (transition nat sstate)))) : ttable :=
  mapi (fun state_in row =>
    mapi (fun symbol_in o =>
            match o with Some t => t | None => undefined_trans symbol_in state_in end) row) tab.

Definition tm_from_quintuples (qs : list quint) (n m : nat) : option ttable :=
  match add_quints n m (repeat (repeat None m) n) qs with
  | Some tab => Some (fill_undefined tab)
  | None => None
  end.

(** ** Block_Macro_Machine (lines 340-417) *)

(** States of a block machine: base states, or [OffsetStartState] (346-351). *)
Inductive bstate (St : Type) := Plain (s : St) | OffsetStart (s : St) (offset : nat).
Arguments Plain {St}. Arguments OffsetStart {St}.

(** [OffsetStartState] defines no [__eq__]: equality is object identity.  There
    is exactly one such object per machine ([init_state]), so identity is
    structural equality. *)
Definition bstate_eqb {St} (eqb : St -> St -> bool) (a b : bstate St) : bool :=
  match a, b with
  | Plain x, Plain y => eqb x y
  | OffsetStart x i, OffsetStart y j => eqb x y && Nat.eqb i j
  | _, _ => false
  end.

(** lines 398-417, eval_trans *)
Definition block_trans {Sym St} (M : machine Sym St) (block_size max_sim : nat)
           (macro_symbol_in : list Sym) (macro_state_in : bstate St) (macro_dir_in : dir)
  : option (transition (list Sym) (bstate St)) :=
  let '(pos, base_state) :=
      match macro_state_in with
      | OffsetStart s offset => (Z.of_nat offset, s)
      | Plain s =>
        (match macro_dir_in with R => 0 | L => Z.of_nat block_size - 1 end, s)
      end in
  match sim_limited M base_state macro_symbol_in pos macro_dir_in max_sim with
  | None => None
  | Some t => Some (Trans (t_cond t) (t_details t) (t_sym t) (Plain (t_state t))
                          (t_dir t) (t_steps t) (t_seen t))
  end.

(** lines 357-389; [offset = None] and [offset = 0] give the plain initial state.
    The constructor asserts [block_size > 0] and [0 < offset < block_size]. *)
Definition block_machine {Sym St} (M : machine Sym St) (block_size : nat)
           (offset : nat) (max_sim : nat) : machine (list Sym) (bstate St) :=
  Machine (block_trans M block_size max_sim)
          (list_eqb (m_sym_eqb M)) (bstate_eqb (m_st_eqb M))
          (repeat (m_init_sym M) block_size)
          (match offset with O => Plain (m_init_st M) | _ => OffsetStart (m_init_st M) offset end)
          (fun s => list_sum (map (m_eval_sym M) s))
          (fun s => match s with Plain s | OffsetStart s _ => m_eval_st M s end).

(** ** Backsymbol_Macro_Machine (lines 420-515) *)

Record backstate (Sym St : Type) := Back { b_state : St; b_sym : Sym }.
Arguments Back {Sym St}. Arguments b_state {Sym St}. Arguments b_sym {Sym St}.

(** lines 482-515, eval_trans *)
Definition back_trans {Sym St} (M : machine Sym St) (max_sim : nat)
           (macro_symbol_in : Sym) (macro_state_in : backstate Sym St) (macro_dir_in : dir)
  : option (transition Sym (backstate Sym St)) :=
  let '(tape, pos) :=
      match macro_dir_in with
      | R => ([b_sym macro_state_in; macro_symbol_in], 1)
      | L => ([macro_symbol_in; b_sym macro_state_in], 0)
      end in
  match sim_limited M (b_state macro_state_in) tape pos macro_dir_in max_sim with
  | None => None
  | Some t =>
    match t_sym t with
    | [x; y] =>
      let '(symbol_out, backsymbol) :=
          match t_dir t with R => (x, y) | L => (y, x) end in
      Some (Trans (t_cond t) (t_details t) symbol_out (Back (t_state t) backsymbol)
                  (t_dir t) (t_steps t) (t_seen t))
    | _ => None      (* ValueError: not two values to unpack *)
    end
  end.

(** lines 449-473 *)
Definition back_machine {Sym St} (M : machine Sym St) (max_sim : nat)
  : machine Sym (backstate Sym St) :=
  Machine (back_trans M max_sim)
          (m_sym_eqb M)
          (fun a b => m_st_eqb M (b_state a) (b_state b) && m_sym_eqb M (b_sym a) (b_sym b))
          (m_init_sym M)
          (Back (m_init_st M) (m_init_sym M))
          (m_eval_sym M)
          (fun s => m_eval_st M (b_state s) + m_eval_sym M (b_sym s))%nat.

(** ** Transition cache, [get_trans_object] (lines 391-396 and 475-480)

    The dict [trans_table] maps (symbol, state, dir) to transitions; it is
    cleared when it has [max_cells] entries.  [eval] is [eval_trans]; a raised
    exception leaves the (possibly cleared) table without the new entry. *)
Section Cache.
  Context {K V : Type} (keqb : K -> K -> bool) (max_cells : nat) (eval : K -> option V).

  Fixpoint cache_get (k : K) (t : list (K * V)) : option V :=
    match t with
    | [] => None
    | (k', v) :: t => if keqb k k' then Some v else cache_get k t
    end.

  Definition get_trans_cached (t : list (K * V)) (k : K) : list (K * V) * option V :=
    match cache_get k t with
    | Some v => (t, Some v)
    | None =>
      let t := if Nat.leb max_cells (length t) then [] else t in
      match eval k with
      | Some v => ((k, v) :: t, Some v)
      | None => (t, None)
      end
    end.

  (** a whole history of requests, starting from the empty table (line 365) *)
  Fixpoint run_requests (t : list (K * V)) (ks : list K) : list (option V) :=
    match ks with
    | [] => []
    | k :: ks => let '(t, v) := get_trans_cached t k in v :: run_requests t ks
    end.
End Cache.
