(** * Model of [Code/Count.py]

    Failed assertions are [None]. *)
Require Import ZArith List Lia Bool Arith.
From Verif Require Import Spec_TM M_Turing_Machine M_IO M_Enum.
Import ListNotations.
Open Scope Z_scope.

(** lines 21-27, fact2: [n!/m!].  [prod_down k m] is the recursion with [n = m + k]; the assertion
    [n >= m >= 0] holds in the recursive calls if it holds in the first *)
Fixpoint prod_down (k : nat) (m : Z) : Z :=
  match k with
  | O => 1
  | S k' => (m + Z.of_nat k) * prod_down k' m
  end.
Definition fact2 (n m : Z) : option Z :=
  if ((m <=? n) && (0 <=? m))%bool then Some (prod_down (Z.to_nat (n - m)) m) else None.

Definition is_halt (t : transition nat sstate) : bool := match t_cond t with HALT => true | _ => false end.
Definition is_running (t : transition nat sstate) : bool := match t_cond t with RUNNING => true | _ => false end.
(** lines 34-49: the statistics; a running transition of a table has a state *)
Definition run_max (f : transition nat sstate -> nat) (ts : list (transition nat sstate)) : nat :=
  fold_left (fun k t => if is_running t then Nat.max k (f t) else k) ts 0%nat.
Definition out_state (t : transition nat sstate) : nat := match t_state t with SRun q => q | SHalt => 0 end.
(** line 47, the assertion *)
Definition countable (t : transition nat sstate) : bool := (is_undefined t || is_halt t || is_running t)%bool.

(** lines 50-70 *)
Definition count_of (n m : nat) (allow_no_halt : bool) (ts : list (transition nat sstate)) : option Z :=
  if forallb countable ts then
    let num_symbols_used := Z.of_nat (run_max (@t_sym nat sstate) ts) + 1 in
    let num_states_used := Z.of_nat (run_max out_state ts) + 1 in
    let num_undefs := num_undefined ts in
    match fact2 (Z.of_nat m - 2) (Z.of_nat m - num_symbols_used), fact2 (Z.of_nat n - 2) (Z.of_nat n - num_states_used) with
    | Some x, Some y =>
      let num_tms := x * y in
      let base := 2 * Z.of_nat n * Z.of_nat m in
      Some (num_tms *
            (if existsb is_halt ts then base ^ Z.of_nat num_undefs
             else (if Nat.leb 1 num_undefs then Z.of_nat num_undefs * base ^ (Z.of_nat num_undefs - 1) else 0)
                  + (if allow_no_halt then base ^ Z.of_nat num_undefs else 0)))
    | _, _ => None
    end
  else None.
(** lines 30-70, count *)
Definition count (tab : ttable) (n m : nat) (allow_no_halt : bool) : option Z :=
  match all_trans tab n m with
  | None => None
  | Some ts => count_of n m allow_no_halt ts
  end.

(** lines 79-84, main: the sum over the machines of the files *)
Fixpoint count_all (n m : nat) (allow_no_halt : bool) (tabs : list ttable) : option Z :=
  match tabs with
  | [] => Some 0
  | tab :: tabs => match count tab n m allow_no_halt, count_all n m allow_no_halt tabs with
                   | Some a, Some b => Some (a + b)
                   | _, _ => None
                   end
  end.
