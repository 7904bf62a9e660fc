(** * Model of [Code/CPS.py] and of the search of [Code/CPS_Filter.py]

    Python sets are lists without repetition in order of insertion; the order in which a
    [for] loop walks through a set is given by the functions [ord_c] and [ord_b], about which
    the theorems only assume that they keep the elements.  Printing and certificates
    (lines 68-75, 240-297) are not modelled. *)
Require Import ZArith List Lia Bool Arith.
From Verif Require Import Spec_TM M_Turing_Machine.
Import ListNotations.
Open Scope Z_scope.

(** a Python slice [l[i:j]] *)
Definition slice_ix {A} (l : list A) (i : Z) : nat :=
  if i <? 0 then Z.to_nat (Z.of_nat (length l) + i) else Z.to_nat i.
Definition pyslice {A} (l : list A) (i j : Z) : list A :=
  firstn (slice_ix l j - slice_ix l i) (skipn (slice_ix l i) l).
Definition zlen {A} (l : list A) : Z := Z.of_nat (length l).

Section CPS.
  Context {Sym St : Type}.
  Variable M : machine Sym St.
  Variable bs : nat.        (* block_size *)
  Notation block := (list Sym).

  (** class Config, lines 34-51 *)
  Record cfg := Config { c_st : St; c_dir : dir; c_win : list Sym; c_pos : Z }.
  Definition new_config (q : St) (d : dir) (w : list Sym) : cfg :=
    Config q d w (match d with L => Z.of_nat bs - 1 | R => zlen w - Z.of_nat bs end).

  (** lines 53-59 *)
  Definition get_block (w : list Sym) (d : dir) (index : Z) : block :=
    let start := index * Z.of_nat bs in
    let end_ := (index + 1) * Z.of_nat bs in
    match d with
    | L => pyslice w start end_
    | R => pyslice w (zlen w - end_) (zlen w - start)
    end.

  (** lines 61-66 *)
  Definition shift_front (c : cfg) (new_front : block) : cfg :=
    new_config (c_st c) (c_dir c)
      (match c_dir c with
       | L => new_front ++ pyslice (c_win c) 0 (zlen (c_win c) - Z.of_nat bs)
       | R => pyslice (c_win c) (Z.of_nat bs) (zlen (c_win c)) ++ new_front
       end).

  (** lines 77-82 *)
  Definition block_eqb (a b : block) : bool := list_eqb (m_sym_eqb M) a b.
  Definition cfg_eqb (a b : cfg) : bool :=
    m_st_eqb M (c_st a) (c_st b) && dir_eqb (c_dir a) (c_dir b) &&
    block_eqb (c_win a) (c_win b) && (c_pos a =? c_pos b).

  (** class ClosedGraphSim, lines 85-119.  [g_edges d] lists the pairs (block, block that may
      follow it); the counters are those of the result message. *)
  Definition entry := (cfg * (transition (list Sym) St * option cfg))%type.
  Record graph := Graph {
    g_todo : list cfg; g_trans : list entry; g_left : list (block * block); g_right : list (block * block);
    n_configs : Z; n_edges : Z; n_steps : Z; g_inf : bool }.
  Definition g_edges (d : dir) (g : graph) := match d with L => g_left g | R => g_right g end.

  Definition graph_new (ws : nat) : graph :=
    let blank := repeat (m_init_sym M) bs in
    Graph [new_config (m_init_st M) R (repeat (m_init_sym M) ws)] [] [(blank, blank)] [(blank, blank)] 0 0 0 false.

  (** dict lookup: the newest entry is in front *)
  Fixpoint find_entry (c : cfg) (l : list entry) : option (transition (list Sym) St * option cfg) :=
    match l with
    | [] => None
    | (c', v) :: l => if cfg_eqb c c' then Some v else find_entry c l
    end.
  Definition edge_eqb (a b : block * block) : bool := block_eqb (fst a) (fst b) && block_eqb (snd a) (snd b).

  Variable ord_c : list cfg -> list cfg.
  Variable ord_b : list block -> list block.

  (** continuations[d][src], in the order of a for loop *)
  Definition successors (d : dir) (src : block) (g : graph) : list block :=
    ord_b (map snd (filter (fun e => block_eqb src (fst e)) (g_edges d g))).

  (** lines 224-230 *)
  Definition add_edge (d : dir) (src dst : block) (g : graph) : bool * graph :=
    if existsb (edge_eqb (src, dst)) (g_edges d g) then (false, g)
    else (true, match d with
                | L => Graph (g_todo g) (g_trans g) (g_left g ++ [(src, dst)]) (g_right g)
                             (n_configs g) (n_edges g + 1) (n_steps g) (g_inf g)
                | R => Graph (g_todo g) (g_trans g) (g_left g) (g_right g ++ [(src, dst)])
                             (n_configs g) (n_edges g + 1) (n_steps g) (g_inf g)
                end).
  (** lines 232-239 *)
  Definition add_config (c : cfg) (g : graph) : bool * graph :=
    if match find_entry c (g_trans g) with Some _ => true | None => false end || existsb (cfg_eqb c) (g_todo g)
    then (false, g)
    else (true, Graph (g_todo g ++ [c]) (g_trans g) (g_left g) (g_right g) (n_configs g + 1) (n_edges g) (n_steps g) (g_inf g)).

  (** a for loop whose body may set was_modified *)
  Definition for_each {A} (f : A -> graph -> bool * graph) (l : list A) (mg : bool * graph) : bool * graph :=
    fold_left (fun mg a => let '(b, g) := f a (snd mg) in (fst mg || b, g)) l mg.

  Definition other (d : dir) : dir := match d with L => R | R => L end.

  (** lines 183-222; [None]: KeyError *)
  Definition update_set (old : cfg) (g : graph) : option (bool * graph) :=
    match find_entry old (g_trans g) with
    | None => None
    | Some (t, new) =>
      if cond_eqb (t_cond t) RUNNING then
        match new with
        | None => None
        | Some new =>
          let front_dir := t_dir t in
          let behind_dir := other (t_dir t) in
          let new_behind_furthest := get_block (c_win new) behind_dir 0 in
          let new_behind_second_furthest := get_block (c_win new) behind_dir 1 in
          let mg := add_edge behind_dir new_behind_second_furthest new_behind_furthest g in
          let old_behind_furthest := get_block (c_win old) behind_dir 0 in
          let mg := for_each (fun dst => add_edge behind_dir new_behind_furthest dst)
                      (successors behind_dir old_behind_furthest (snd mg)) mg in
          let old_front := get_block (c_win old) (t_dir t) 0 in
          let mg := for_each (fun new_front => add_config (shift_front new new_front))
                      (successors front_dir old_front (snd mg)) mg in
          Some mg
        end
      else Some (false, g)
    end.

  (** lines 151-181 *)
  Definition sim_config (max_steps : Z) (old : cfg) (g : graph) : option (cond * graph) :=
    match sim_limited M (c_st old) (c_win old) (c_pos old) (c_dir old) (Z.to_nat (max_steps - n_steps g)) with
    | None => None
    | Some t =>
      let new := if cond_eqb (t_cond t) RUNNING then
                   Some (Config (t_state t) (t_dir t) (t_sym t) (match t_dir t with L => -1 | R => zlen (t_sym t) end))
                 else None in
      Some (t_cond t,
            Graph (g_todo g) ((old, (t, new)) :: g_trans g) (g_left g) (g_right g) (n_configs g) (n_edges g)
                  (n_steps g + Z.of_nat (t_steps t)) (g_inf g || cond_eqb (t_cond t) INF_REPEAT))
    end.

  (** lines 130-143: the loop over one batch of configs; [Some None]: return with failure *)
  Fixpoint sim_batch (max_steps : Z) (l : list cfg) (g : graph) : option (option graph) :=
    match l with
    | [] => Some (Some g)
    | c :: l =>
      match sim_config max_steps c g with
      | None => None
      | Some (RUNNING, g) =>
        match update_set c g with
        | None => None
        | Some (_, g) => sim_batch max_steps l g
        end
      | Some (INF_REPEAT, g) => sim_batch max_steps l g
      | Some _ => Some None
      end
    end.
  (** lines 126-143 *)
  Fixpoint sim_todo (fuel : nat) (max_steps : Z) (g : graph) : option (option graph) :=
    match g_todo g with
    | [] => Some (Some g)
    | _ :: _ =>
      match fuel with
      | O => None
      | S fuel =>
        let configs := g_todo g in
        let g := Graph [] (g_trans g) (g_left g) (g_right g) (n_configs g) (n_edges g) (n_steps g) (g_inf g) in
        match sim_batch max_steps (ord_c configs) g with
        | Some (Some g) => sim_todo fuel max_steps g
        | o => o
        end
      end
    end.
  (** lines 146-150 *)
  Fixpoint update_all (l : list cfg) (mg : bool * graph) : option (bool * graph) :=
    match l with
    | [] => Some mg
    | c :: l =>
      match update_set c (snd mg) with
      | None => None
      | Some (b, g) => update_all l (fst mg || b, g)
      end
    end.

  (** the keys of the dict *)
  Fixpoint keys (l : list entry) : list cfg :=
    match l with
    | [] => []
    | (c, _) :: l => if existsb (cfg_eqb c) (keys l) then keys l else c :: keys l
    end.

  (** run, lines 121-161, with success and the graph; each todo loop simulates at least one
      config, each simulation takes at least one step, so the fuels of [run] below suffice
      (theorem C33_cps_returns). *)
  Fixpoint run_loop (fuel todo_fuel : nat) (max_steps max_iters max_configs max_edges : Z) (iters : Z) (g : graph)
    : option (bool * Z * graph) :=
    match fuel with
    | O => None
    | S fuel =>
      let iters := iters + 1 in
      match sim_todo todo_fuel max_steps g with
      | None => None
      | Some None => Some (false, iters, g)
      | Some (Some g) =>
        match update_all (ord_c (keys (g_trans g))) (false, g) with
        | None => None
        | Some (false, g) => Some (true, iters, g)
        | Some (true, g) =>
          if (max_iters <=? iters) || (max_configs <=? n_configs g) || (max_edges <=? n_edges g)
          then Some (false, iters, g)
          else run_loop fuel todo_fuel max_steps max_iters max_configs max_edges iters g
        end
      end
    end.
  Definition run (ws : nat) (max_steps max_iters max_configs max_edges : Z) : option (bool * Z * graph) :=
    run_loop (S (Z.to_nat max_iters)) (Z.to_nat max_steps + 2) max_steps max_iters max_configs max_edges 0 (graph_new ws).
End CPS.

(** CPS.filter, lines 300-318: is the machine reported as not halting? *)
Definition cps_filter {Sym St} (M : machine Sym St) ord_c ord_b (bs ws : nat) (max_steps max_iters max_configs max_edges : Z)
  : option bool :=
  match run M bs ord_c ord_b ws max_steps max_iters max_configs max_edges with
  | Some (b, _, _) => Some b
  | None => None
  end.

(** CPS_Filter.filter_all, lines 35-53: the pairs (block size, window size) in order *)
Definition cps_sizes (min_block max_block max_window : nat) : list (nat * nat) :=
  if Nat.eqb max_window 0 then
    map (fun b => (b, 3 * b)%nat) (seq min_block (S max_block - min_block))
  else
    flat_map (fun w => map (fun b => (b, w)) (seq 1 (w / 2))) (seq 2 (max_window - 1)).
Fixpoint cps_search {Sym St} (M : machine Sym St) ord_c ord_b (sizes : list (nat * nat))
         (max_steps max_iters max_configs max_edges : Z) : option bool :=
  match sizes with
  | [] => Some false
  | (b, w) :: sizes =>
    match cps_filter M ord_c ord_b b w max_steps max_iters max_configs max_edges with
    | Some false => cps_search M ord_c ord_b sizes max_steps max_iters max_configs max_edges
    | o => o
    end
  end.
Definition cps_filter_all {Sym St} (M : machine Sym St) ord_c ord_b (min_block max_block max_window : nat)
         (max_steps max_iters max_configs max_edges : Z) : option bool :=
  cps_search M ord_c ord_b (cps_sizes min_block max_block max_window) max_steps max_iters max_configs max_edges.
